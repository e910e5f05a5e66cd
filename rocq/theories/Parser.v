(** Model of engines/yayamls/parser: parser.go, token_source.go, indents.go, comments.go,
    properties.go.  The productions of flow.go, block.go and documents.go are in ParserFlow.v,
    ParserBlock.v and ParserDocs.v.

    The parser is a program that asks its token source for tokens and moves its checkpoints; what
    the source does with these requests is left open ([prog]).  [run_acc] below answers them with
    the checkpointing accessor, as in the code. *)
From Coq Require Import String.
From Verif Require Import Base YamlChar Token Ast CPAccessor Lexer Balance.

(** ** Programs over a token source *)
(* token_source.go 10-27: the requests a parser makes.  [Stuck]: a loop or a recursion ran out of
   fuel. *)
Inductive prog (A : Type) : Type :=
| Ret (a : A)
| Stuck
| Next (k : token -> prog A)
| SetCp (k : prog A)
| Commit (k : prog A)
| Rollback (k : token -> prog A)
| Raw (b : bool) (k : prog A).
Arguments Ret {A}. Arguments Stuck {A}. Arguments Next {A}. Arguments SetCp {A}.
Arguments Commit {A}. Arguments Rollback {A}. Arguments Raw {A}.

Fixpoint pbind {A B} (p : prog A) (f : A -> prog B) : prog B :=
  match p with
  | Ret a => f a
  | Stuck => Stuck
  | Next k => Next (fun t => pbind (k t) f)
  | SetCp k => SetCp (pbind k f)
  | Commit k => Commit (pbind k f)
  | Rollback k => Rollback (fun t => pbind (k t) f)
  | Raw b k => Raw b (pbind k f)
  end.

(** A stream of tokens: the next token, and switching raw mode (token_source.go 10-22). *)
Record stream (S : Type) := mkStream { st_next : S -> token * S; st_raw : bool -> S -> S }.
Arguments mkStream {S}. Arguments st_next {S}. Arguments st_raw {S}.

(** The outcome of running a program over a source in state [S]. *)
Inductive ran (S A : Type) := Fin (a : A) (s : S) | Panicked | OutOfFuel.
Arguments Fin {S A}. Arguments Panicked {S A}. Arguments OutOfFuel {S A}.

(* token_source.go 24-46: the checkpointing accessor over the stream.  [release] puts a pointer to
   the accessor's pointer into the pool, which the type assertion of line 31 never accepts, so every
   accessor is a new one. *)
Fixpoint run_acc {S A} (st : stream S) (p : prog A) (a : accessor S token)
  : ran (accessor S token) A :=
  match p with
  | Ret x => Fin x a
  | Stuck => OutOfFuel
  | Next k => match acc_next (st_next st) a with
              | Some (t, a') => run_acc st (k t) a'
              | None => Panicked
              end
  | SetCp k => run_acc st k (acc_set_checkpoint a)
  | Commit k => run_acc st k (acc_commit a)
  | Rollback k => match acc_rollback a with
                  | Some (t, a') => run_acc st (k t) a'
                  | None => Panicked
                  end
  | Raw b k => run_acc st k (mkAcc (st_raw st b (acc_stream a)) (acc_buf a) (acc_saved a)
                                   (acc_ind a) (acc_cps a))
  end.

(** Go's zero Token *)
Definition zero_token : token := mkTok TUnknown (mkPos 0 0) (mkPos 0 0) [] 0.

(** The tokenizer as a stream.  [fuel] bounds the characters of one token; C07 shows that one more
    than the length of the document is enough, so that the last case does not occur. *)
Definition lexer_stream {S} (src : source S) (fuel : nat) : stream (lex S) :=
  mkStream (fun l => match lex_next src fuel l with Some (tk, l') => (tk, l') | None => (zero_token, l) end)
           lex_set_raw.

(* token_source.go 48-76: tokens from a slice, then ends of input *)
Definition eof_token : token := mkTok TEOF (mkPos 0 0) (mkPos 0 0) [] 0.
Definition slice_stream : stream (list token) :=
  mkStream (fun l => match l with [] => (eof_token, []) | tk :: l' => (tk, l') end) (fun _ l => l).

(** ** The state of the parser *)
(* parser.go 19-27 *)
Inductive context := NoCtx | BlockIn | BlockOut | BlockKey | FlowIn | FlowOut | FlowKey.

(* parser.go 35-44 *)
Inductive imode := UnknownMode | StrictMode | LowerBoundMode.
Record indentation := mkInd { ind_value : Z; ind_mode : imode }.

(* errors.go: the kinds of errors with the data the parser puts in *)
Inductive perror :=
| UnbalancedClosing (tok : token)
| UnbalancedOpening (opener : option ttype) (pos : position)
| TagError (src : text) (pos : position)
| DeadEnd (pos : position).

(** parser.go 46-61.  Saved states are kept with the latest first; the memento inside [state] is
    only read right after it was taken from a saved state, so it is not a field.

    Two more fields stand for objects passed to the productions by pointer: [p_ind] is the
    indentation object of the production being run and [p_buf] its byte buffer.  Running a
    production on another object is [with_ind] and [with_buf]. *)
Record pst := mkP {
  p_tok : token;
  p_sol : bool;                       (* startOfLine *)
  p_saved : list (bool * memento);
  p_errs : list perror;
  p_chk : checker;
  p_dead : finder;
  p_ind : indentation;
  p_buf : text
}.

Definition M (A : Type) := pst -> prog (A * pst).
Definition ret {A} (a : A) : M A := fun s => Ret (a, s).
Definition bind {A B} (m : M A) (f : A -> M B) : M B :=
  fun s => pbind (m s) (fun r => f (fst r) (snd r)).
Definition stuck {A} : M A := fun _ => Stuck.
Definition gets {A} (f : pst -> A) : M A := fun s => Ret (f s, s).
Definition modify (f : pst -> pst) : M unit := fun s => Ret (tt, f s).

Declare Scope parser_scope.
Notation "x <- m ;; k" := (bind m (fun x => k))
  (at level 61, m at next level, right associativity) : parser_scope.
Notation "m ;; k" := (bind m (fun _ => k)) (at level 61, right associativity) : parser_scope.
Local Open Scope parser_scope.

Definition set_tok (t : token) (s : pst) : pst :=
  mkP t (p_sol s) (p_saved s) (p_errs s) (p_chk s) (p_dead s) (p_ind s) (p_buf s).
Definition set_ind (i : indentation) (s : pst) : pst :=
  mkP (p_tok s) (p_sol s) (p_saved s) (p_errs s) (p_chk s) (p_dead s) i (p_buf s).
Definition set_buf (b : text) (s : pst) : pst :=
  mkP (p_tok s) (p_sol s) (p_saved s) (p_errs s) (p_chk s) (p_dead s) (p_ind s) b.

(** run a production with another indentation object; its final content is returned *)
Definition with_ind {A} (i : indentation) (m : M A) : M (A * indentation) :=
  outer <- gets p_ind ;;
  modify (set_ind i) ;;
  a <- m ;;
  i' <- gets p_ind ;;
  modify (set_ind outer) ;;
  ret (a, i').
Definition with_ind_ {A} (i : indentation) (m : M A) : M A :=
  r <- with_ind i m ;; ret (fst r).

(** run a production with a buffer taken from the pool (parser.go 29-31).  Every buffer put back was
    emptied before, so the buffer is empty. *)
Definition with_buf {A} (m : M A) : M A :=
  outer <- gets p_buf ;;
  modify (set_buf []) ;;
  a <- m ;;
  modify (set_buf outer) ;;
  ret a.
Definition buf_len : M nat := gets (fun s => length (p_buf s)).
Definition buf_write (x : text) : M unit := modify (fun s => set_buf (p_buf s ++ x) s).
Definition buf_truncate (n : nat) : M unit := modify (fun s => set_buf (firstn n (p_buf s)) s).
Definition buf_text : M text := gets p_buf.

(** the value of the current indentation object: ind.value++, ind.value-- *)
Definition shift_ind (d : Z) : M unit :=
  modify (fun s => set_ind (mkInd (ind_value (p_ind s) + d) (ind_mode (p_ind s))) s).

Definition tok : M token := gets p_tok.
Definition tok_ty : M ttype := gets (fun s => tok_type (p_tok s)).

(* parser.go 163-172 *)
Definition is_start_of_line (sol : bool) (t : ttype) : bool :=
  match t with TLineBreak => true | TBOM => sol | _ => false end.

(* parser.go 142-161, after the token was read *)
Definition took (t : token) (s : pst) : pst :=
  let sol := is_start_of_line (p_sol s) (tok_type (p_tok s)) in
  let keep chk errs := mkP t sol (p_saved s) errs chk (p_dead s) (p_ind s) (p_buf s) in
  match tok_type t with
  | TEOF =>
      keep (p_chk s)
           (if bc_is_balanced (p_chk s) then p_errs s
            else p_errs s ++ [UnbalancedOpening (bc_peek (p_chk s)) (tok_start t)])
  | TMappingStart | TSequenceStart | TSingleQuote | TDoubleQuote =>
      keep (snd (bc_add (p_chk s) (tok_type t))) (p_errs s)
  | TMappingEnd | TSequenceEnd =>
      let '(ok, chk) := bc_add (p_chk s) (tok_type t) in
      keep chk (if ok then p_errs s else p_errs s ++ [UnbalancedClosing t])
  | _ => keep (p_chk s) (p_errs s)
  end.
Definition next : M unit := fun s => Next (fun t => Ret (tt, took t s)).

(* parser.go 174-176 *)
Definition append_err (e : perror) : M unit :=
  modify (fun s => mkP (p_tok s) (p_sol s) (p_saved s) (p_errs s ++ [e]) (p_chk s) (p_dead s) (p_ind s) (p_buf s)).
(* parser.go 178-180 *)
Definition has_errors : M bool := gets (fun s => match p_errs s with [] => false | _ => true end).

(* parser.go 197-203 *)
Definition push_saved (s : pst) : pst :=
  mkP (p_tok s) (p_sol s) ((p_sol s, bc_memento (p_chk s)) :: p_saved s) (p_errs s) (p_chk s)
      (p_dead s) (p_ind s) (p_buf s).
Definition set_checkpoint : M unit := fun s => SetCp (Ret (tt, push_saved s)).
(* parser.go 205-210 *)
Definition pop_saved (s : pst) : pst :=
  mkP (p_tok s) (p_sol s) (tl (p_saved s)) (p_errs s) (p_chk s) (p_dead s) (p_ind s) (p_buf s).
Definition commit : M unit := fun s => Commit (Ret (tt, pop_saved s)).
(* parser.go 212-219, after the token was restored *)
Definition restored (t : token) (s : pst) : pst :=
  match p_saved s with
  | [] => set_tok t s
  | (sol, mem) :: rest =>
      mkP t sol rest (p_errs s) (bc_set_memento (p_chk s) mem) (p_dead s) (p_ind s) (p_buf s)
  end.
Definition rollback : M unit := fun s => Rollback (fun t => Ret (tt, restored t s)).

Definition set_raw (b : bool) : M unit := fun s => Raw b (Ret (tt, s)).

(** deadEndFinder.Mark(p.tok) *)
Definition mark_dead_end : M bool := fun s =>
  let '(r, f) := df_mark (p_dead s) (tok_start (p_tok s)) in
  Ret (r, mkP (p_tok s) (p_sol s) (p_saved s) (p_errs s) (p_chk s) f (p_ind s) (p_buf s)).

(* parser.go 221-226 *)
Definition new_content (properties content : node) : node :=
  if valid_node properties then NContent properties content else content.

(** p.tok.ConformsCharSet(...): the answer does not depend on the token's cache (C03) *)
Definition conforms (tk : token) (c : charset) : bool := conforms_charset (tok_origin tk) c.

(** productions begin by giving up when there are errors *)
Definition unless_errors (m : M node) : M node :=
  e <- has_errors ;; if e then ret NInvalid else m.
Definition valid (m : M node) : M bool := n <- m ;; ret (valid_node n).
Definition basic (ty : ntype) : M node := ret (NBasic ty).
Definition invalid : M node := ret NInvalid.

Section Loops.
  (** the fuel of every loop *)
  Variable fuel : nat.

  (** [for { ... }]: the body says whether to go on *)
  Fixpoint loop_go {A} (n : nat) (body : A -> M (A * bool)) (a : A) : M A :=
    match n with
    | O => stuck
    | S n' => r <- body a ;; if snd r then loop_go n' body (fst r) else ret (fst r)
    end.
  Definition loop {A} (body : A -> M (A * bool)) (a : A) : M A := loop_go fuel body a.
  Definition loop_ (body : M bool) : M unit := loop (fun _ => b <- body ;; ret (tt, b)) tt.

  (** [for cond(p.tok) { p.next() }], and the same collecting the texts *)
  Definition skip_while (cond : token -> bool) : M unit :=
    loop_ (t <- tok ;; if cond t then next ;; ret true else ret false).
  Definition write_while (cond : token -> bool) : M unit :=
    loop_ (t <- tok ;; if cond t then buf_write (tok_origin t) ;; next ;; ret true else ret false).

  (** ** indents.go *)
  (* 39-47 *)
  Definition parse_separate_in_line : M node := unless_errors (
    t <- tok ;; sol <- gets p_sol ;;
    if negb (is_white_space t) && negb sol then invalid
    else skip_while is_white_space ;; basic IndentType).

  (* 67-78 *)
  Fixpoint take_spaces (n : nat) : M bool :=
    match n with
    | O => ret true
    | S n' => ty <- tok_ty ;; if ttype_eqb ty TSpace then next ;; take_spaces n' else ret false
    end.
  Definition parse_indent_strict (i : Z) : M node := unless_errors (
    if (i <? 0)%Z then invalid
    else ok <- take_spaces (Z.to_nat i) ;; if ok : bool then ret (NIndent i) else invalid).

  (* 80-98 *)
  Definition parse_indent_lower (lower : Z) : M node := unless_errors (
    ok <- take_spaces (Z.to_nat lower) ;;
    if ok : bool then
      n <- loop (fun n => ty <- tok_ty ;;
                          if ttype_eqb ty TSpace then next ;; ret ((n + 1)%Z, true) else ret (n, false))
                (Z.max 0 lower) ;;
      ret (NIndent n)
    else invalid).

  (* 50-65 *)
  Definition parse_indent : M node :=
    i <- gets p_ind ;;
    match ind_mode i with
    | StrictMode => parse_indent_strict (ind_value i)
    | LowerBoundMode =>
        n <- parse_indent_lower (ind_value i) ;;
        match n with
        | NIndent v => modify (set_ind (mkInd v StrictMode)) ;; ret n
        | _ => invalid
        end
    | UnknownMode => invalid
    end.

  (* 110-126: the loop ends after at most indentation - lowBorder steps *)
  Fixpoint count_spaces (n : nat) (found : Z) : M Z :=
    match n with
    | O => ret found
    | S n' => ty <- tok_ty ;;
              if ttype_eqb ty TSpace then next ;; count_spaces n' (found + 1)%Z else ret found
    end.
  Definition parse_bordered_indent (i low : Z) : M node := unless_errors (
    if (i <? low)%Z then invalid
    else n <- count_spaces (Z.to_nat (i - low)) 0%Z ;; ret (NIndent n)).
  (* 101-103 *)
  Definition parse_indent_less (i : Z) : M node := parse_bordered_indent i 1.
  (* 106-108 *)
  Definition parse_indent_less_or_equal (i : Z) : M node := parse_bordered_indent i 0.

  (* 170-186 *)
  Definition parse_flow_line_prefix : M node := unless_errors (
    ok <- valid parse_indent ;;
    if ok : bool then
      set_checkpoint ;;
      ok <- valid parse_separate_in_line ;;
      (if ok : bool then commit else rollback) ;;
      basic IndentType
    else invalid).

  (* 153-167 *)
  Definition parse_line_prefix (ctx : context) : M node :=
    match ctx with
    | BlockOut | BlockIn => parse_indent
    | FlowOut | FlowIn => parse_flow_line_prefix
    | _ => invalid
    end.

  (* 129-150 *)
  Definition parse_empty (ctx : context) : M node := unless_errors (
    set_checkpoint ;;
    ok <- valid (parse_line_prefix ctx) ;;
    ok <- (if ok : bool then commit ;; ret true
           else rollback ;; i <- gets p_ind ;; valid (parse_indent_less (ind_value i))) ;;
    if ok : bool then
      t <- tok ;;
      if ttype_eqb (tok_type t) TLineBreak then
        buf_write (tok_origin t) ;; next ;; basic IndentType
      else invalid
    else invalid).

  (** ** comments.go *)
  (* 78-88 *)
  Definition parse_comment_text : M node := unless_errors (
    ty <- tok_ty ;;
    if ttype_eqb ty TComment then next ;; skip_while is_non_break ;; basic CommentType
    else invalid).

  (** p.tok is a line break or the end of input *)
  Definition at_line_end : M bool :=
    ty <- tok_ty ;; ret (ttype_eqb ty TLineBreak || ttype_eqb ty TEOF).

  (* 60-75 *)
  Definition parse_comment_line : M node := unless_errors (
    ok <- valid parse_separate_in_line ;;
    if ok : bool then
      set_checkpoint ;;
      ok <- valid parse_comment_text ;;
      (if ok : bool then commit else rollback) ;;
      ended <- at_line_end ;;
      if ended : bool then next ;; basic CommentType else invalid
    else invalid).

  (* 34-57 *)
  Definition parse_separated_comment : M node := unless_errors (
    set_checkpoint ;;
    ok <- valid parse_separate_in_line ;;
    (if ok : bool then
       set_checkpoint ;;
       ok <- valid parse_comment_text ;;
       (if ok : bool then commit else rollback) ;;
       commit
     else rollback) ;;
    ended <- at_line_end ;;
    if ended : bool then next ;; basic CommentType else invalid).

  (** [for { p.setCheckpoint(); if !valid(m) { p.rollback(); break }; p.commit() }] *)
  Definition repeat_valid (m : M node) : M unit :=
    loop_ (set_checkpoint ;;
           ok <- valid m ;;
           if ok : bool then commit ;; ret true else rollback ;; ret false).

  (* 9-31 *)
  Definition parse_comments : M node := unless_errors (
    set_checkpoint ;;
    ok <- valid parse_separated_comment ;;
    go <- (if ok : bool then commit ;; ret true
           else rollback ;; gets p_sol) ;;
    if go : bool then repeat_valid parse_comment_line ;; basic CommentType
    else invalid).

  (** ** indents.go, continued *)
  (* 22-36 *)
  Definition parse_separate_lines : M node := unless_errors (
    set_checkpoint ;;
    ok <- valid parse_comments ;;
    ok <- (if ok : bool then valid parse_flow_line_prefix else ret false) ;;
    if ok : bool then commit ;; basic IndentType
    else
      rollback ;;
      ok <- valid parse_separate_in_line ;;
      if ok : bool then basic IndentType else invalid).

  (* 11-19 *)
  Definition parse_separate (ctx : context) : M node :=
    match ctx with
    | BlockIn | BlockOut | FlowIn | FlowOut => parse_separate_lines
    | BlockKey | FlowKey => parse_separate_in_line
    | NoCtx => invalid
    end.

  (** ** properties.go *)
  (* 36-43, with node.go 111-119 *)
  Definition parse_chomping : M chomping :=
    ty <- tok_ty ;;
    match ty with
    | TStripChomping => next ;; ret StripChomping
    | TKeepChomping => next ;; ret KeepChomping
    | _ => ret ClipChomping
    end.

  (** strconv.Atoi on decimal digits, as far as it is compared with 9; the empty text and values
      that do not fit are errors like the values out of range *)
  Definition indicator_value (s : text) : N := fold_left (fun n c => n * 10 + (c - 48))%N s 0%N.

  (* 46-62; [None]: an error *)
  Definition parse_indentation_indicator : M (option Z) :=
    t <- tok ;;
    if ttype_eqb (tok_type t) TString && conforms t CsDecimal then
      let v := indicator_value (tok_origin t) in
      if (1 <=? v)%N && (v <=? 9)%N then next ;; ret (Some (Z.of_N v)) else ret None
    else ret (Some 0%Z).

  (* 14-33 *)
  Definition parse_block_header : M node := unless_errors (
    c <- parse_chomping ;;
    i <- parse_indentation_indicator ;;
    match i with
    | None => invalid
    | Some i =>
        c <- (match c with ClipChomping => parse_chomping | _ => ret c end) ;;
        set_checkpoint ;;
        ok <- valid parse_separated_comment ;;
        if ok : bool then commit ;; ret (NBlockHeader c i) else rollback ;; invalid
    end).

  (* 102-113 *)
  Definition parse_alias_node : M node := unless_errors (
    ty <- tok_ty ;;
    if ttype_eqb ty TAlias then
      next ;;
      t <- tok ;;
      if ttype_eqb (tok_type t) TString && conforms t CsAnchor then
        next ;; ret (NAlias (tok_origin t))
      else invalid
    else invalid).

  (* 116-131 *)
  Definition parse_anchor_property : M node := unless_errors (
    ty <- tok_ty ;;
    if ttype_eqb ty TAnchor then
      set_checkpoint ;;
      next ;;
      t <- tok ;;
      if ttype_eqb (tok_type t) TString && conforms t CsAnchor then
        next ;; commit ;; ret (NAnchor (tok_origin t))
      else rollback ;; invalid
    else invalid).

  (* documents.go 254-281 *)
  Definition parse_tag_handle : M node := unless_errors (
    ty <- tok_ty ;;
    if ttype_eqb ty TTag then
      next ;;
      t <- tok ;;
      if ttype_eqb (tok_type t) TTag then next ;; basic TagType
      else
        set_checkpoint ;;
        named <- (if ttype_eqb (tok_type t) TString && conforms t CsWord then
                    next ;; ty <- tok_ty ;; ret (ttype_eqb ty TTag)
                  else ret false) ;;
        if named : bool then next ;; commit ;; basic TagType
        else rollback ;; basic TagType
    else invalid).

  (** Origin[1 : len-1] of a text beginning with < and ending with >, longer than two characters *)
  Definition verbatim_body (s : text) : option text :=
    match s with
    | c :: (_ :: _) as s' =>
        if (c =? 60)%N && Nat.ltb 2 (length s) && (last s' 0 =? 62)%N then Some (removelast (tl s))
        else None
    | _ => None
    end.

  (* 134-186 *)
  Definition parse_tag_property : M node := unless_errors (
    set_checkpoint ;;
    ok <- valid parse_tag_handle ;;
    t <- tok ;;
    if ok && ttype_eqb (tok_type t) TString && conforms t CsTag then
      commit ;; next ;; ret (NTag (tok_origin t))
    else
      rollback ;;
      ty <- tok_ty ;;
      if ttype_eqb ty TTag then
        set_raw true ;; next ;; set_raw false ;;
        t <- tok ;;
        let is_string := ttype_eqb (tok_type t) TString in
        let verbatim :=
          match verbatim_body (tok_origin t) with
          | Some body => if is_string && conforms_charset body CsURI then Some body else None
          | None => None
          end in
        match verbatim with
        | Some body => next ;; ret (NTag body)
        | None =>
            (if is_string then append_err (TagError (tok_origin t) (tok_start t)) else ret tt) ;;
            ret (NTag [])
        end
      else invalid).

  (* 65-99 *)
  Definition parse_properties (ctx : context) : M node := unless_errors (
    ty <- tok_ty ;;
    match ty with
    | TTag =>
        tag <- parse_tag_property ;;
        if valid_node tag then
          set_checkpoint ;;
          ok <- valid (parse_separate ctx) ;;
          anchor <- (if ok : bool then parse_anchor_property else ret NNil) ;;
          (if valid_node tag && valid_node anchor then commit else rollback) ;;
          ret (NProperties tag anchor)
        else invalid
    | TAnchor =>
        anchor <- parse_anchor_property ;;
        if valid_node anchor then
          set_checkpoint ;;
          ok <- valid (parse_separate ctx) ;;
          tag <- (if ok : bool then parse_tag_property else ret NNil) ;;
          (if valid_node tag && valid_node anchor then commit else rollback) ;;
          ret (NProperties tag anchor)
        else invalid
    | _ => invalid
    end).
End Loops.
