(** Model of engines/yayamls/parser/block.go (678-730 are in ParserFlow.v). *)
From Coq Require Import String.
From Verif Require Import Base YamlChar Token Ast Parser ParserFlow.
Local Open Scope parser_scope.

Section Block.
  Variable fuel : nat.

  (** [for { p.setCheckpoint(); if !valid(m) { p.rollback(); buf.Truncate(saved); break }; p.commit();
      saved = buf.Len() }] *)
  Definition repeat_valid_truncating (m : M node) (saved : nat) : M unit :=
    loop fuel (fun saved =>
      set_checkpoint ;;
      ok <- valid m ;;
      if ok : bool then commit ;; n <- buf_len ;; ret (n, true)
      else rollback ;; buf_truncate saved ;; ret (saved, false)) saved ;;
    ret tt.

  (** ** Literal and folded scalars *)
  (** write the rest of the line in raw mode: 600-606, 667-673, 947-952 *)
  Definition rest_of_line : M unit :=
    set_raw true ;; write_while fuel is_non_break ;; set_raw false.

  (* 929-954 *)
  Definition parse_literal_text : M node := unless_errors (
    repeat_valid fuel (parse_empty fuel BlockIn) ;;
    ok <- valid (parse_indent fuel) ;;
    if ok : bool then
      t <- tok ;;
      if is_non_break t then rest_of_line ;; basic TextType else invalid
    else invalid).

  (* 914-926 *)
  Definition parse_literal_next : M node := unless_errors (
    t <- tok ;;
    if ttype_eqb (tok_type t) TLineBreak then
      saved <- buf_len ;;
      buf_write (tok_origin t) ;;
      next ;;
      ok <- valid parse_literal_text ;;
      if ok : bool then basic TextType else buf_truncate saved ;; invalid
    else invalid).

  (* 797-819; chomping is never unknown here *)
  Definition parse_chomped_last (c : chomping) : M node := unless_errors (
    t <- tok ;;
    match c with
    | StripChomping =>
        match tok_type t with
        | TLineBreak | TEOF => next ;; basic TextType
        | _ => invalid
        end
    | ClipChomping | KeepChomping =>
        match tok_type t with
        | TLineBreak => buf_write (tok_origin t) ;; next ;; basic TextType
        | TEOF => next ;; basic TextType
        | _ => invalid
        end
    | UnknownChomping => next ;; basic TextType
    end).

  (* 891-911 *)
  Definition parse_trail_comments : M node := unless_errors (
    i <- gets p_ind ;;
    ok <- valid (parse_indent_less (ind_value i)) ;;
    if ok : bool then
      ok <- valid (parse_comment_text fuel) ;;
      if ok : bool then
        ended <- at_line_end ;;
        if ended : bool then
          next ;; repeat_valid fuel (parse_comment_line fuel) ;; basic CommentType
        else invalid
      else invalid
    else invalid).

  (* 863-888 *)
  Definition parse_strip_empty : M node := unless_errors (
    loop_ fuel (
      set_checkpoint ;;
      i <- gets p_ind ;;
      ok <- valid (parse_indent_less_or_equal (ind_value i)) ;;
      if ok : bool then
        ty <- tok_ty ;;
        if ttype_eqb ty TLineBreak then next ;; commit ;; ret true
        else rollback ;; ret false
      else rollback ;; ret false) ;;
    set_checkpoint ;;
    ok <- valid parse_trail_comments ;;
    (if ok : bool then commit else rollback) ;;
    basic TextType).

  (* 837-860 *)
  Definition parse_keep_empty : M node := unless_errors (
    saved <- buf_len ;;
    saved <- loop fuel (fun saved =>
      set_checkpoint ;;
      ok <- valid (parse_empty fuel BlockIn) ;;
      if ok : bool then commit ;; n <- buf_len ;; ret (n, true)
      else rollback ;; buf_truncate saved ;; ret (saved, false)) saved ;;
    set_checkpoint ;;
    ok <- valid parse_trail_comments ;;
    (if ok : bool then commit else buf_truncate saved ;; rollback) ;;
    basic TextType).

  (* 822-834 *)
  Definition parse_chomped_empty (c : chomping) : M node := unless_errors (
    match c with
    | ClipChomping | StripChomping => parse_strip_empty
    | KeepChomping => parse_keep_empty
    | UnknownChomping => invalid
    end).

  (* 759-794 *)
  Definition parse_literal_content (c : chomping) : M node := unless_errors (with_buf (
    set_checkpoint ;;
    ok <- valid parse_literal_text ;;
    (if ok : bool then
       loop_ fuel (
         set_checkpoint ;;
         saved <- buf_len ;;
         ok <- valid parse_literal_next ;;
         if ok : bool then commit ;; ret true
         else buf_truncate saved ;; rollback ;; ret false) ;;
       ok <- valid (parse_chomped_last c) ;;
       if ok : bool then commit else buf_truncate 0 ;; rollback
     else buf_truncate 0 ;; rollback) ;;
    ok <- valid (parse_chomped_empty c) ;;
    if ok : bool then text <- buf_text ;; ret (NText text UnknownQuoting) else invalid)).

  (** the indentation object a block scalar starts with: 746-753, 468-475 *)
  Definition scalar_ind (outer indicator : Z) : indentation :=
    if (indicator =? 0)%Z then mkInd outer LowerBoundMode else mkInd (outer + indicator) StrictMode.

  (* 733-756 *)
  Definition parse_literal : M node := unless_errors (
    ty <- tok_ty ;;
    if ttype_eqb ty TLiteral then
      next ;;
      header <- parse_block_header fuel ;;
      match header with
      | NBlockHeader c i =>
          outer <- gets p_ind ;;
          with_ind_ (scalar_ind (ind_value outer) i) (parse_literal_content c)
      | _ => invalid
      end
    else invalid).

  (* 659-675 *)
  Definition parse_folded_text : M node := unless_errors (
    ok <- valid (parse_indent fuel) ;;
    if ok : bool then
      t <- tok ;;
      if is_non_break t && negb (is_white_space t) then
        buf_write (tok_origin t) ;; next ;; rest_of_line ;; basic TextType
      else invalid
    else invalid).

  (* 634-656 *)
  Definition parse_folded_lines : M node := unless_errors (
    ok <- valid parse_folded_text ;;
    if ok : bool then
      saved <- buf_len ;;
      repeat_valid_truncating (
        ok <- valid (parse_folded_line_break fuel BlockIn) ;;
        if ok : bool then parse_folded_text else invalid) saved ;;
      basic TextType
    else invalid).

  (* 589-608 *)
  Definition parse_spaced_text : M node := unless_errors (
    ok <- valid (parse_indent fuel) ;;
    if ok : bool then
      t <- tok ;;
      if is_white_space t then
        buf_write (tok_origin t) ;; next ;; rest_of_line ;; basic TextType
      else invalid
    else invalid).

  (* 611-631: the line break is not consumed *)
  Definition parse_spaced_line_break : M node := unless_errors (
    t <- tok ;;
    if ttype_eqb (tok_type t) TLineBreak then
      buf_write (tok_origin t) ;;
      saved <- buf_len ;;
      repeat_valid_truncating (parse_empty fuel BlockIn) saved ;;
      basic TextType
    else invalid).

  (* 564-586 *)
  Definition parse_spaced_lines : M node := unless_errors (
    ok <- valid parse_spaced_text ;;
    if ok : bool then
      saved <- buf_len ;;
      repeat_valid_truncating (
        ok <- valid parse_spaced_line_break ;;
        if ok : bool then parse_spaced_text else invalid) saved ;;
      basic TextType
    else invalid).

  (* 529-561 *)
  Definition parse_same_lines : M node := unless_errors (
    saved <- buf_len ;;
    local <- loop fuel (fun local =>
      set_checkpoint ;;
      ok <- valid (parse_empty fuel BlockIn) ;;
      if ok : bool then n <- buf_len ;; commit ;; ret (n, true)
      else rollback ;; buf_truncate local ;; ret (local, false)) saved ;;
    set_checkpoint ;;
    ok <- valid parse_folded_lines ;;
    if ok : bool then commit ;; basic TextType
    else
      buf_truncate local ;;
      rollback ;;
      ok <- valid parse_spaced_lines ;;
      if ok : bool then basic TextType else buf_truncate saved ;; invalid).

  (* 503-526 *)
  Definition parse_diff_lines : M node := unless_errors (
    ok <- valid parse_same_lines ;;
    if ok : bool then
      saved <- buf_len ;;
      loop fuel (fun saved =>
        set_checkpoint ;;
        t <- tok ;;
        if ttype_eqb (tok_type t) TLineBreak then
          buf_write (tok_origin t) ;;
          next ;;
          ok <- valid parse_same_lines ;;
          if ok : bool then commit ;; n <- buf_len ;; ret (n, true)
          else buf_truncate saved ;; rollback ;; ret (saved, false)
        else buf_truncate saved ;; rollback ;; ret (saved, false)) saved ;;
      basic TextType
    else invalid).

  (* 480-500 *)
  Definition parse_folded_content (c : chomping) : M node := unless_errors (with_buf (
    set_checkpoint ;;
    ok <- valid parse_diff_lines ;;
    ok <- (if ok : bool then valid (parse_chomped_last c) else ret false) ;;
    (if ok : bool then commit else buf_truncate 0 ;; rollback) ;;
    ok <- valid (parse_chomped_empty c) ;;
    if ok : bool then text <- buf_text ;; ret (NText text UnknownQuoting) else invalid)).

  (* 454-477 *)
  Definition parse_folded : M node := unless_errors (
    ty <- tok_ty ;;
    if ttype_eqb ty TFolded then
      next ;;
      header <- parse_block_header fuel ;;
      match header with
      | NBlockHeader c i =>
          outer <- gets p_ind ;;
          with_ind_ (scalar_ind (ind_value outer) i) (parse_folded_content c)
      | _ => invalid
      end
    else invalid).

  (* 411-451 *)
  Definition parse_block_scalar (ctx : context) : M node := unless_errors (
    shift_ind 1 ;;
    ok <- valid (parse_separate fuel ctx) ;;
    if ok : bool then
      set_checkpoint ;;
      properties <- parse_properties fuel ctx ;;
      properties <- (if valid_node properties then
                       ok <- valid (parse_separate fuel ctx) ;;
                       if ok : bool then commit ;; ret properties else rollback ;; ret NNil
                     else rollback ;; ret NNil) ;;
      shift_ind (-1) ;;
      ty <- tok_ty ;;
      content <- (match ty with
                  | TLiteral => parse_literal
                  | TFolded => parse_folded
                  | _ => invalid
                  end) ;;
      if valid_node content then ret (new_content properties content) else invalid
    else shift_ind (-1) ;; invalid).

  (** ** Block collections *)
  (** collect further entries at the indentation of the first one: 107-121, 135-149, 300-314,
      391-405 *)
  Definition more_entries (entry : M node) (first : node) : M (list node) :=
    loop fuel (fun entries =>
      set_checkpoint ;;
      ok <- valid (parse_indent fuel) ;;
      if ok : bool then
        e <- entry ;;
        if valid_node e then commit ;; ret (entries ++ [e], true)
        else rollback ;; ret (entries, false)
      else rollback ;; ret (entries, false)) [first].

  Section Knot.
    Variables (block_node block_indented : context -> M node).

    (* 190-202 *)
    Definition parse_block_mapping_implicit_key : M node := unless_errors (
      set_checkpoint ;;
      key <- parse_implicit_json_key fuel (json_content fuel) BlockKey ;;
      if valid_node key then commit ;; ret key
      else rollback ;; parse_implicit_yaml_key fuel BlockKey).

    (* 205-223 *)
    Definition parse_block_mapping_implicit_value : M node := unless_errors (
      ty <- tok_ty ;;
      if ttype_eqb ty TMappingValue then
        next ;;
        set_checkpoint ;;
        value <- block_node BlockOut ;;
        if valid_node value then commit ;; ret value
        else
          rollback ;;
          ok <- valid (parse_comments fuel) ;;
          if ok : bool then ret NNull else invalid
      else invalid).

    (* 169-187 *)
    Definition parse_block_mapping_implicit_entry : M node := unless_errors (
      set_checkpoint ;;
      key <- parse_block_mapping_implicit_key ;;
      key <- (if valid_node key then commit ;; ret key else rollback ;; ret NNull) ;;
      value <- parse_block_mapping_implicit_value ;;
      if valid_node value then ret (NEntry key value) else invalid).

    (* 247-254 *)
    Definition parse_block_mapping_explicit_key : M node := unless_errors (
      ty <- tok_ty ;;
      if ttype_eqb ty TMappingKey then next ;; block_indented BlockOut else invalid).

    (* 257-266 *)
    Definition parse_block_mapping_explicit_value : M node := unless_errors (
      ok <- valid (parse_indent fuel) ;;
      if ok : bool then
        ty <- tok_ty ;;
        if ttype_eqb ty TMappingValue then next ;; block_indented BlockOut else invalid
      else invalid).

    (* 226-244 *)
    Definition parse_block_mapping_explicit_entry : M node := unless_errors (
      key <- parse_block_mapping_explicit_key ;;
      if valid_node key then
        set_checkpoint ;;
        value <- parse_block_mapping_explicit_value ;;
        value <- (if valid_node value then commit ;; ret value else rollback ;; ret NNull) ;;
        ret (NEntry key value)
      else invalid).

    (* 155-166 *)
    Definition parse_block_mapping_entry : M node := unless_errors (
      ty <- tok_ty ;;
      match ty with
      | TMappingKey => parse_block_mapping_explicit_entry
      | _ => parse_block_mapping_implicit_entry
      end).

    (* 321-332 *)
    Definition parse_block_sequence_entry : M node := unless_errors (
      ty <- tok_ty ;;
      if ttype_eqb ty TSequenceEntry then
        next ;;
        ty <- tok_ty ;;
        match ty with
        | TSpace | TTab | TLineBreak => block_indented BlockIn
        | _ => invalid
        end
      else invalid).

    (** the common shape of 91-124 and 284-318 *)
    Definition block_collection (entry : M node) (build : list node -> node) : M node := unless_errors (
      outer <- gets p_ind ;;
      with_ind_ (mkInd (ind_value outer + 1) LowerBoundMode) (
        ok <- valid (parse_indent fuel) ;;
        if ok : bool then
          e <- entry ;;
          if valid_node e then es <- more_entries entry e ;; ret (build es) else invalid
        else invalid)).
    (* 91-124 *)
    Definition parse_block_mapping : M node := block_collection parse_block_mapping_entry NMapping.
    (* 284-318 *)
    Definition parse_block_sequence : M node := block_collection parse_block_sequence_entry NSequence.

    (** the common shape of 126-152 and 382-408 *)
    Definition compact_collection (entry : M node) (build : list node -> node) : M node := unless_errors (
      e <- entry ;;
      if valid_node e then es <- more_entries entry e ;; ret (build es) else invalid).
    (* 126-152 *)
    Definition parse_compact_mapping : M node := compact_collection parse_block_mapping_entry NMapping.
    (* 382-408 *)
    Definition parse_compact_sequence : M node := compact_collection parse_block_sequence_entry NSequence.

    (* 269-281 *)
    Definition parse_seq_space (ctx : context) : M node :=
      match ctx with
      | BlockIn => parse_block_sequence
      | BlockOut => shift_ind (-1) ;; n <- parse_block_sequence ;; shift_ind 1 ;; ret n
      | _ => invalid
      end.

    (* 50-88 *)
    Definition parse_block_collection (ctx : context) : M node := unless_errors (
      set_checkpoint ;;
      shift_ind 1 ;;
      ok <- valid (parse_separate fuel ctx) ;;
      properties <- (if ok : bool then
                       properties <- parse_properties fuel ctx ;;
                       if valid_node properties then commit ;; ret properties
                       else rollback ;; ret NNil
                     else rollback ;; ret NNil) ;;
      shift_ind (-1) ;;
      ok <- valid (parse_comments fuel) ;;
      if ok : bool then
        set_checkpoint ;;
        collection <- parse_seq_space ctx ;;
        if valid_node collection then commit ;; ret (new_content properties collection)
        else
          rollback ;;
          collection <- parse_block_mapping ;;
          if valid_node collection then ret (new_content properties collection) else invalid
      else invalid).

    (* 30-47 *)
    Definition parse_block_in_block (ctx : context) : M node := unless_errors (
      set_checkpoint ;;
      scalar <- parse_block_scalar ctx ;;
      if valid_node scalar then commit ;; ret scalar
      else
        rollback ;;
        collection <- parse_block_collection ctx ;;
        if valid_node collection then ret collection else invalid).

    (* 11-27 *)
    Definition block_node_body (ctx : context) : M node := unless_errors (
      set_checkpoint ;;
      node <- parse_block_in_block ctx ;;
      if valid_node node then commit ;; ret node
      else
        rollback ;;
        node <- parse_flow_in_block fuel ;;
        if valid_node node then ret node else invalid).

    (* 335-379 *)
    Definition block_indented_body (ctx : context) : M node := unless_errors (
      set_checkpoint ;;
      r <- with_ind (mkInd 0 LowerBoundMode) (parse_indent fuel) ;;
      set_checkpoint ;;
      outer <- gets p_ind ;;
      let merged := mkInd (ind_value outer + 1 + ind_value (snd r)) StrictMode in
      c <- with_ind merged parse_compact_sequence ;;
      if valid_node (fst c) then commit ;; commit ;; ret (fst c)
      else
        rollback ;;
        c <- with_ind (snd c) parse_compact_mapping ;;
        if valid_node (fst c) then commit ;; ret (fst c)
        else
          rollback ;;
          set_checkpoint ;;
          content <- block_node ctx ;;
          if valid_node content then commit ;; ret content
          else
            rollback ;;
            ok <- valid (parse_comments fuel) ;;
            if ok : bool then ret NNull else invalid).
  End Knot.

  (** [indented] chooses between parseBlockIndented and parseBlockNode *)
  Fixpoint block (n : nat) (indented : bool) (ctx : context) : M node :=
    match n with
    | O => stuck
    | S n' =>
        if indented then block_indented_body (block n' false) (block n' true) ctx
        else block_node_body (block n' false) (block n' true) ctx
    end.
  Definition parse_block_node (ctx : context) : M node := block fuel false ctx.
End Block.
