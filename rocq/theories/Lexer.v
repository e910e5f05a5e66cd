(** Model of engines/yayamls/lexer: rune_stream.go, context.go and tokenizer.go.

    The source of runes is a parameter, so that the same tokenizer text can be run over the
    checkpointing accessor (as in the code, [acc_source] below) and over a plain list of runes (for
    the proofs).  The end of input (EOF, rune_stream.go 8) is [None].  UTF-8 decoding
    (rune_stream.go 22-29) is not modelled here: the input is the sequence of decoded runes. *)
From Verif Require Import Base YamlChar Token CPAccessor.
Local Open Scope N_scope.

(* context.go 8-18 *)
Inductive ctx_type := CBlock | CFlow | CComment | CMultiline | CSingle | CDouble | CTag.

(** What the tokenizer needs from its source: the next rune, and looking at the next [n] runes
    without consuming them. *)
Record source (S : Type) := mkSource {
  src_next : S -> option rune * S;
  src_look : nat -> S -> list (option rune) * S
}.
Arguments mkSource {S}. Arguments src_next {S}. Arguments src_look {S}.

Section Lexer.
  Context {S : Type} (src : source S).

  (* tokenizer.go 15-25 and context.go 22-26.  The context stack has its top first.  Of
     [lookbehindTok] only the type is kept: the predicates applied to it (token.go 157-186,
     context.go 349-351) look at nothing else. *)
  Record lex := mkLex {
    lx_src : S;
    lx_ctx : list ctx_type;
    lx_escaped : bool;
    lx_raw : bool;
    lx_pos : position;
    lx_behind : ttype;
    lx_prepared : option token
  }.

  (* tokenizer.go 43-65, after the source is set *)
  Definition lex_new (s : S) : lex := mkLex s [] false false (mkPos 1 0) TUnknown None.

  (* tokenizer.go 68-75 *)
  Definition lex_set_raw (b : bool) (l : lex) : lex :=
    mkLex (lx_src l) (lx_ctx l) (lx_escaped l) b (lx_pos l) (lx_behind l) (lx_prepared l).
  Definition with_ctx (c : list ctx_type) (l : lex) : lex :=
    mkLex (lx_src l) c (lx_escaped l) (lx_raw l) (lx_pos l) (lx_behind l) (lx_prepared l).
  Definition with_escaped (e : bool) (l : lex) : lex :=
    mkLex (lx_src l) (lx_ctx l) e (lx_raw l) (lx_pos l) (lx_behind l) (lx_prepared l).
  Definition with_pos (p : position) (l : lex) : lex :=
    mkLex (lx_src l) (lx_ctx l) (lx_escaped l) (lx_raw l) p (lx_behind l) (lx_prepared l).
  Definition with_src (s : S) (l : lex) : lex :=
    mkLex s (lx_ctx l) (lx_escaped l) (lx_raw l) (lx_pos l) (lx_behind l) (lx_prepared l).
  Definition with_behind (t : ttype) (l : lex) : lex :=
    mkLex (lx_src l) (lx_ctx l) (lx_escaped l) (lx_raw l) (lx_pos l) t (lx_prepared l).
  Definition with_prepared (t : option token) (l : lex) : lex :=
    mkLex (lx_src l) (lx_ctx l) (lx_escaped l) (lx_raw l) (lx_pos l) (lx_behind l) t.

  (* context.go 38-40 *)
  Definition switch_context (c : ctx_type) (l : lex) : lex := with_ctx (c :: lx_ctx l) l.
  (* context.go 42-47 *)
  Definition current_type (stack : list ctx_type) : ctx_type :=
    match stack with [] => CBlock | c :: _ => c end.
  (* context.go 49-53 *)
  Definition revert_context (l : lex) : lex := with_ctx (tl (lx_ctx l)) l.
  (* context.go 55-66 *)
  Fixpoint whitespace_revert (stack : list ctx_type) : list ctx_type :=
    match stack with CTag :: st => whitespace_revert st | _ => stack end.
  (* context.go 68-82 *)
  Fixpoint line_break_revert (stack : list ctx_type) : list ctx_type :=
    match stack with
    | CComment :: st | CMultiline :: st | CTag :: st => line_break_revert st
    | _ => stack
    end.

  (* tokenizer.go 127-136 *)
  Definition lookahead (n : nat) (pred : list (option rune) -> bool) (l : lex) : bool * lex :=
    let '(rs, s) := src_look src n (lx_src l) in (pred rs, with_src s l).
  (* tokenizer.go 138-140 *)
  Definition lookbehind (pred : ttype -> bool) (l : lex) : bool := pred (lx_behind l).

  (** the predicates of token.go, on types *)
  (* token.go 157-164 *)
  Definition may_precede_word_t (t : ttype) : bool :=
    match t with TSpace | TTab | TLineBreak | TUnknown => true | _ => false end.
  (* token.go 168-175 *)
  Definition opening_flow_t (t : ttype) : bool :=
    match t with TMappingStart | TSequenceStart | TCollectEntry => true | _ => false end.
  (* token.go 179-186 *)
  Definition closing_flow_t (t : ttype) : bool :=
    match t with TMappingEnd | TSequenceEnd | TCollectEntry => true | _ => false end.
  (* context.go 349-351 *)
  Definition may_precede_word_in_flow (t : ttype) : bool := may_precede_word_t t || opening_flow_t t.

  (** first rune looked at is blank or the end of input (context.go 113-115 and others) *)
  Definition blank_or_eof (rs : list (option rune)) : bool :=
    match rs with
    | Some c :: _ => is_blank_char c
    | None :: _ => true
    | [] => false
    end.
  (* context.go 264-266 *)
  Definition blank_flow_or_eof (rs : list (option rune)) : bool :=
    match rs with
    | Some c :: _ => is_blank_char c || is_flow_indicator c
    | None :: _ => true
    | [] => false
    end.
  (** two runes [c] followed by a blank or the end of input (context.go 124-127, 231-234) *)
  Definition two_then_blank (c : rune) (rs : list (option rune)) : bool :=
    match rs with
    | Some a :: Some b :: rest => (a =? b) && (b =? c) && blank_or_eof rest
    | _ => false
    end.

  (** a token of one rune at the current position *)
  Definition one (ty : ttype) (c : rune) (l : lex) : option token * lex :=
    (Some (mkTok ty (lx_pos l) (lx_pos l) [c] 0), l).

  Definition rune_list (r : option rune) : text := match r with Some c => [c] | None => [] end.

  (** [string([]rune{r, Next(), Next()})] with the column advanced by two
      (context.go 128-132, 235-239) *)
  Definition three (ty : ttype) (c : rune) (l : lex) : option token * lex :=
    let '(r1, s1) := src_next src (lx_src l) in
    let '(r2, s2) := src_next src s1 in
    let p := mkPos (row (lx_pos l)) (column (lx_pos l) + 2) in
    (Some (mkTok ty (lx_pos l) p (c :: rune_list r1 ++ rune_list r2) 0), with_pos p (with_src s2 l)).

  (* context.go 442-491 *)
  Definition base_matching (l : lex) (r : option rune) : option token * lex :=
    match r with
    | None => (Some (mkTok TEOF (lx_pos l) (lx_pos l) [] 0), l)
    | Some c =>
        if c =? ch_bom then one TBOM c l
        else if c =? ch_cr then
          let start := lx_pos l in
          let l := with_ctx (line_break_revert (lx_ctx l)) l in
          let '(is_lf, l) := lookahead 1 (fun rs => match rs with Some x :: _ => x =? ch_lf | _ => false end) l in
          let '(origin, l) :=
            if is_lf then
              let '(r1, s1) := src_next src (lx_src l) in
              (c :: rune_list r1, with_pos (mkPos (row (lx_pos l)) (column (lx_pos l) + 1)) (with_src s1 l))
            else ([c], l) in
          (Some (mkTok TLineBreak start (lx_pos l) origin 0), with_pos (mkPos (row (lx_pos l) + 1) 0) l)
        else if c =? ch_lf then
          let l := with_ctx (line_break_revert (lx_ctx l)) l in
          (Some (mkTok TLineBreak (lx_pos l) (lx_pos l) [c] 0), with_pos (mkPos (row (lx_pos l) + 1) 0) l)
        else if c =? ch_space then one TSpace c (with_ctx (whitespace_revert (lx_ctx l)) l)
        else if c =? ch_tab then one TTab c (with_ctx (whitespace_revert (lx_ctx l)) l)
        else (None, l)
    end.

  (* context.go 109-243 *)
  Definition block_matching (l : lex) (r : option rune) : option token * lex :=
    match r with
    | None => base_matching l r
    | Some c =>
        if c =? ch_seq_entry then
          let '(a, l) := lookahead 1 blank_or_eof l in
          if a && lookbehind may_precede_word_t l then one TSequenceEntry c l
          else
            let '(a, l) := lookahead 3 (two_then_blank ch_seq_entry) l in
            if a && lookbehind may_precede_word_t l then three TDirectiveEnd c l
            else base_matching l r
        else if c =? ch_map_key then
          let '(a, l) := lookahead 1 blank_or_eof l in
          if a && lookbehind may_precede_word_t l then one TMappingKey c l else base_matching l r
        else if c =? ch_map_value then
          let '(a, l) := lookahead 1 blank_or_eof l in
          if a then one TMappingValue c l else base_matching l r
        else if c =? ch_seq_start then
          if lookbehind may_precede_word_t l then one TSequenceStart c (switch_context CFlow l)
          else base_matching l r
        else if c =? ch_map_start then
          if lookbehind may_precede_word_t l then one TMappingStart c (switch_context CFlow l)
          else base_matching l r
        else if c =? ch_comment then
          if lookbehind may_precede_word_t l then one TComment c (switch_context CComment l)
          else base_matching l r
        else if c =? ch_anchor then
          if lookbehind may_precede_word_t l then one TAnchor c l else base_matching l r
        else if c =? ch_alias then
          if lookbehind may_precede_word_t l then one TAlias c l else base_matching l r
        else if c =? ch_tag then one TTag c (switch_context CTag l)
        else if c =? ch_literal then
          if lookbehind may_precede_word_t l then one TLiteral c (switch_context CMultiline l)
          else base_matching l r
        else if c =? ch_folded then
          if lookbehind may_precede_word_t l then one TFolded c (switch_context CMultiline l)
          else base_matching l r
        else if c =? ch_squote then one TSingleQuote c (switch_context CSingle l)
        else if c =? ch_dquote then one TDoubleQuote c (switch_context CDouble l)
        else if c =? ch_directive then one TDirective c l
        else if c =? ch_dot then
          let '(a, l) := lookahead 3 (two_then_blank ch_dot) l in
          if a && lookbehind may_precede_word_t l then three TDocumentEnd c l
          else base_matching l r
        else base_matching l r
    end.

  (* context.go 245-347 *)
  Definition flow_matching (l : lex) (r : option rune) : option token * lex :=
    let before_quote t := may_precede_word_in_flow t || ttype_eqb t TMappingValue in
    match r with
    | None => base_matching l r
    | Some c =>
        if c =? ch_map_key then
          let '(a, l) := lookahead 1 blank_or_eof l in
          if a && lookbehind may_precede_word_in_flow l then one TMappingKey c l else base_matching l r
        else if c =? ch_map_value then
          let '(a, l) := lookahead 1 blank_flow_or_eof l in
          if a || lookbehind (fun t => closing_flow_t t || ttype_eqb t TDoubleQuote
                                       || ttype_eqb t TSingleQuote) l
          then one TMappingValue c l else base_matching l r
        else if c =? ch_seq_start then
          if lookbehind may_precede_word_in_flow l then one TSequenceStart c (switch_context CFlow l)
          else base_matching l r
        else if c =? ch_map_start then
          if lookbehind may_precede_word_in_flow l then one TMappingStart c (switch_context CFlow l)
          else base_matching l r
        else if c =? ch_seq_end then one TSequenceEnd c (revert_context l)
        else if c =? ch_map_end then one TMappingEnd c (revert_context l)
        else if c =? ch_anchor then
          if lookbehind may_precede_word_in_flow l then one TAnchor c l else base_matching l r
        else if c =? ch_alias then
          if lookbehind may_precede_word_in_flow l then one TAlias c l else base_matching l r
        else if c =? ch_tag then one TTag c (switch_context CTag l)
        else if c =? ch_squote then
          if lookbehind before_quote l then one TSingleQuote c (switch_context CSingle l)
          else base_matching l r
        else if c =? ch_dquote then
          if lookbehind before_quote l then one TDoubleQuote c (switch_context CDouble l)
          else base_matching l r
        else if c =? ch_collect then one TCollectEntry c l
        else base_matching l r
    end.

  (* context.go 357-380 *)
  Definition multiline_start_matching (l : lex) (r : option rune) : option token * lex :=
    match r with
    | None => base_matching l r
    | Some c =>
        if c =? ch_seq_entry then one TStripChomping c l
        else if c =? ch_plus then one TKeepChomping c l
        else if c =? ch_comment then
          if lookbehind may_precede_word_t l then one TComment c (switch_context CComment l)
          else base_matching l r
        else base_matching l r
    end.

  (* context.go 382-399 *)
  Definition single_quote_matching (l : lex) (r : option rune) : option token * lex :=
    match r with
    | None => base_matching (with_escaped false l) r
    | Some c =>
        if c =? ch_squote then
          let '(closes, l) :=
            if lx_escaped l then (false, l)
            else lookahead 1 (fun rs => match rs with Some x :: _ => negb (x =? ch_squote) | _ => true end) l in
          if closes then one TSingleQuote c (revert_context l)
          else base_matching (with_escaped (negb (lx_escaped l)) l) r
        else base_matching (with_escaped false l) r
    end.

  (* context.go 401-425 *)
  Definition double_quote_matching (l : lex) (r : option rune) : option token * lex :=
    match r with
    | None => base_matching (with_escaped false l) r
    | Some c =>
        if c =? ch_escape then base_matching (with_escaped (negb (lx_escaped l)) l) r
        else if (c =? ch_space) && lx_escaped l then (None, with_escaped false l)
        else if (c =? ch_dquote) && negb (lx_escaped l) then one TDoubleQuote c (revert_context l)
        else base_matching (with_escaped false l) r
    end.

  (* context.go 427-436 *)
  Definition tag_matching (l : lex) (r : option rune) : option token * lex :=
    match r with
    | Some c => if c =? ch_tag then one TTag c l else base_matching l r
    | None => base_matching l r
    end.

  (* context.go 84-107, 349-351 and 438-440 *)
  Definition match_special (l : lex) (r : option rune) : option token * lex :=
    if lx_raw l then base_matching l r
    else match current_type (lx_ctx l) with
         | CBlock => block_matching l r
         | CFlow => flow_matching l r
         | CComment => base_matching l r
         | CMultiline => multiline_start_matching l r
         | CSingle => single_quote_matching l r
         | CDouble => double_quote_matching l r
         | CTag => tag_matching l r
         end.

  (* tokenizer.go 89-125.  [pending] is the start position and the (reversed) origin of the string
     token being collected, if any.  [None]: out of fuel. *)
  Fixpoint emit (fuel : nat) (pending : option (position * text)) (l : lex) : option (token * lex) :=
    match fuel with
    | O => None
    | Datatypes.S f =>
        let '(r, s) := src_next src (lx_src l) in
        let cur := mkPos (row (lx_pos l)) (column (lx_pos l) + 1) in
        let l := with_pos cur (with_src s l) in
        match match_special l r with
        | (Some special, l) =>
            match pending with
            | Some (start, origin) =>
                Some (mkTok TString start (mkPos (row cur) (column cur - 1)) (rev origin) 0,
                      with_prepared (Some special) l)
            | None => Some (special, with_behind (tok_type special) l)
            end
        | (None, l) =>
            match pending with
            | Some (start, origin) => emit f (Some (start, rev_append (rune_list r) origin)) l
            | None => emit f (Some (cur, rune_list r)) (with_behind TString l)
            end
        end
    end.

  (* tokenizer.go 78-87 *)
  Definition lex_next (fuel : nat) (l : lex) : option (token * lex) :=
    match lx_prepared l with
    | Some tok => Some (tok, with_prepared None (with_behind (tok_type tok) l))
    | None => emit fuel None l
    end.

  (** A run: before each token the consumer sets raw mode as the schedule says. *)
  Fixpoint lex_run (fuel : nat) (sched : list bool) (l : lex) : option (list token) :=
    match sched with
    | [] => Some []
    | b :: sched' =>
        match lex_next fuel (lex_set_raw b l) with
        | None => None
        | Some (tok, l') => option_map (cons tok) (lex_run fuel sched' l')
        end
    end.
End Lexer.

Arguments lex : clear implicits.

(** The plain list of runes as a source. *)
Definition list_next (s : text) : option rune * text :=
  match s with [] => (None, []) | r :: s' => (Some r, s') end.
Fixpoint list_look (n : nat) (s : text) : list (option rune) :=
  match n with
  | O => []
  | Datatypes.S n' => let '(r, s') := list_next s in r :: list_look n' s'
  end.
Definition list_source : source text := mkSource list_next (fun n s => (list_look n s, s)).

(** The checkpointing accessor over the rune stream (tokenizer.go 15, rune_stream.go), with
    lookahead = SetCheckpoint, [n] times Next, Rollback (tokenizer.go 127-136).  An out-of-range
    panic of the accessor, which C01 excludes, is shown as an end of input. *)
Definition rune_accessor := accessor text (option rune).
Definition acc_read (a : rune_accessor) : option rune * rune_accessor :=
  match acc_next list_next a with Some (v, a') => (v, a') | None => (None, a) end.
Fixpoint acc_reads (n : nat) (a : rune_accessor) : list (option rune) * rune_accessor :=
  match n with
  | O => ([], a)
  | Datatypes.S n' =>
      let '(v, a1) := acc_read a in
      let '(vs, a2) := acc_reads n' a1 in (v :: vs, a2)
  end.
Definition acc_look (n : nat) (a : rune_accessor) : list (option rune) * rune_accessor :=
  let '(vs, a1) := acc_reads n (acc_set_checkpoint a) in
  match acc_rollback a1 with Some (_, a2) => (vs, a2) | None => (vs, a1) end.
Definition acc_source : source rune_accessor := mkSource acc_read acc_look.

(** A tokenizer for a document (tokenizer.go 43-65): tokens requested along a raw-mode schedule. *)
Definition tokenize (doc : text) (sched : list bool) : option (list token) :=
  lex_run acc_source (Datatypes.S (length doc)) sched (lex_new (acc_init None doc)).
