(** Specification of documents as text: which text stands for which tree.  The trees are those the
    parser is to give for the text. *)
From Coq Require Import String.
From Verif Require Import Base Ast RoundTripSpec.
Local Open Scope N_scope.

Definition spaces (n : nat) : text := repeat 32 n.

(** A collection is a sequence ([true]) or a mapping ([false]). *)
Definition build (kind : bool) (es : list node) : node := if kind then NSequence es else NMapping es.

(** ** Scalars: unquoted words, and single or double quotes around characters that need no escape *)
Inductive scalar_text : node -> text -> Prop :=
| stx_plain s : plain_text s -> scalar_text (NText s UnknownQuoting) s
| stx_single s : Forall single_char s -> scalar_text (NText s SingleQuoting) (39 :: s ++ [39])
| stx_double s : Forall double_char s -> scalar_text (NText s DoubleQuoting) (34 :: s ++ [34]).

(** ** Line breaks, and what may be between the parts of a flow collection: spaces, or the rest of a line, any
    number of lines without text, and the indentation, at least [n], of the line that goes on. *)
Inductive break_text : text -> Prop := br_lf : break_text [10] | br_crlf : break_text [13; 10].
Inductive blank_lines : text -> Prop :=
| bl_none : blank_lines []
| bl_more m e s : break_text e -> blank_lines s -> blank_lines (spaces m ++ e ++ s).
Inductive sep_text (n : nat) : text -> Prop :=
| sp_spaces a : sep_text n (spaces a)
| sp_lines a e l m : break_text e -> blank_lines l -> (n <= m)%nat -> sep_text n (spaces a ++ e ++ l ++ spaces m).

(** ** Flow collections: [[a, b]] and [{a: b}], on one line or going on in lines indented by at least [n].
    Spaces may be anywhere between the parts, lines may end after brackets and commas and before them, a comma
    may be the last part, a mapping may hold keys without a value and a sequence may hold pairs.  The
    number [h] bounds how deep sequences are nested. *)
Definition opening (kind : bool) : rune := if kind then 91 else 123.
Definition closing (kind : bool) : rune := if kind then 93 else 125.
Definition deeper (kind : bool) (h : nat) : nat := if kind then S h else h.
Definition quoted (t : node) : Prop := exists s, t = NText s SingleQuoting \/ t = NText s DoubleQuoting.
Definition is_text (t : node) : Prop := exists s q, t = NText s q.
(** A scalar inside brackets does not start with a colon. *)
Definition word_text (t : node) (s : text) : Prop := scalar_text t s /\ hd 0 s <> 58.
(** After the colon there is a space, unless the key is quoted, ends right before the colon, and the
    value is a scalar. *)
Definition tight (n1 n2 : nat) (k v : node) : Prop := n2 = O -> n1 = O /\ quoted k /\ is_text v.

Inductive flow_text (n : nat) : nat -> node -> text -> Prop :=
| ft_scalar h t s : word_text t s -> flow_text n h t s
| ft_empty kind h w : sep_text n w -> flow_text n (deeper kind h) (build kind []) (opening kind :: w ++ [closing kind])
| ft_items kind h w es s : sep_text n w -> items_text n kind h es s ->
    flow_text n (deeper kind h) (build kind es) (opening kind :: w ++ s ++ [closing kind])
with item_text (n : nat) : bool -> nat -> node -> text -> Prop :=
| it_node h t s : flow_text n h t s -> item_text n true h t s
| it_key h k s : word_text k s -> item_text n false h (NEntry k NNull) s
| it_pair kind h k ks n1 n2 t s : word_text k ks -> tight n1 n2 k t -> flow_text n h t s ->
    item_text n kind h (NEntry k t) (ks ++ spaces n1 ++ 58 :: spaces n2 ++ s)
with items_text (n : nat) : bool -> nat -> list node -> text -> Prop :=
| is_one kind h e s w : item_text n kind h e s -> sep_text n w -> items_text n kind h [e] (s ++ w)
| is_last kind h e s w w2 : item_text n kind h e s -> sep_text n w -> sep_text n w2 -> items_text n kind h [e] (s ++ w ++ 44 :: w2)
| is_more kind h e s w w2 es s2 : item_text n kind h e s -> sep_text n w -> sep_text n w2 -> items_text n kind h es s2 ->
    items_text n kind h (e :: es) (s ++ w ++ 44 :: w2 ++ s2).

Scheme flow_text_mut := Minimality for flow_text Sort Prop
  with item_text_mut := Minimality for item_text Sort Prop
  with items_text_mut := Minimality for items_text Sort Prop.
Combined Scheme flow_text_ind2 from flow_text_mut, item_text_mut, items_text_mut.

(** ** Scalars that go on in further lines *)
(** [k] lines without text. *)
Inductive empty_text : nat -> text -> Prop :=
| em_none : empty_text 0 []
| em_more k m s : empty_text k s -> empty_text (S k) (spaces m ++ 10 :: s).
(** What the break between two lines of a scalar stands for: a space, or as many line breaks as there are
    lines without text in between. *)
Definition folding (k : nat) : text := match k with O => [32] | S _ => repeat 10 k end.
(** From the end of a line of a scalar to the start of the next one, indented by at least [n]. *)
Inductive seam_text (n : nat) : text -> text -> Prop :=
| st_seam e k l m : break_text e -> empty_text k l -> (n <= m)%nat -> seam_text n (folding k) (e ++ l ++ spaces m).
(** The further lines of an unquoted scalar: what they stand for, and their text. *)
Inductive plain_more_text (n : nat) : text -> text -> Prop :=
| pm_none : plain_more_text n [] []
| pm_line a w j s v r : seam_text n w j -> plain_text s -> plain_more_text n v r ->
    plain_more_text n (w ++ s ++ v) (spaces a ++ j ++ s ++ r).
(** Those of a quoted scalar, the last of which may be empty.  No line ends in spaces, except the last one. *)
Definition blank (c : rune) : Prop := c = 32 \/ c = 9.
Inductive quoted_more_text (n : nat) (char : rune -> Prop) : text -> text -> Prop :=
| qm_none : quoted_more_text n char [] []
| qm_last w j : seam_text n w j -> quoted_more_text n char w j
| qm_line w j s v r : seam_text n w j -> s <> [] -> Forall char s -> ~ blank (hd 0 s) -> (r <> [] -> ~ blank (last s 0)) ->
    quoted_more_text n char v r -> quoted_more_text n char (w ++ s ++ v) (j ++ s ++ r).

(** A value without a tag or an anchor: a scalar or a flow collection with sequences nested at most five deep, on
    one line or going on in lines indented by at least [n]. *)
Inductive bare_text (n : nat) : node -> text -> Prop :=
| ba_scalar t s : scalar_text t s -> bare_text n t s
| ba_flow h t s : (h <= 5)%nat -> flow_text n h t s -> bare_text n t s
| ba_plain s v r : plain_text s -> plain_more_text n v r -> bare_text n (NText (s ++ v) UnknownQuoting) (s ++ r)
| ba_single s v r : Forall single_char s -> (r <> [] -> ~ blank (last s 0)) -> quoted_more_text n single_char v r ->
    bare_text n (NText (s ++ v) SingleQuoting) (39 :: s ++ r ++ [39])
| ba_double s v r : Forall double_char s -> (r <> [] -> ~ blank (last s 0)) -> quoted_more_text n double_char v r ->
    bare_text n (NText (s ++ v) DoubleQuoting) (34 :: s ++ r ++ [34]).

(** ** Aliases, anchors and tags *)
(** Digits, ASCII letters, and, in handles, the dash. *)
Definition alnum (c : rune) : Prop := 48 <= c <= 57 \/ 65 <= c <= 90 \/ 97 <= c <= 122.
Definition handle_char (c : rune) : Prop := alnum c \/ c = 45.
(** The other characters of tags: # ; / ? : @ & = + $ _ . ~ * and the single quote. *)
Definition tag_char (c : rune) : Prop := alnum c \/ In c [35; 59; 47; 63; 58; 64; 38; 61; 43; 36; 95; 46; 126; 42; 39].
Inductive anchor_text : node -> text -> Prop := an_name w : plain_word w -> anchor_text (NAnchor w) (38 :: w).
(** With the primary, the secondary or a named handle, none of which is part of the tree. *)
Inductive tag_text : node -> text -> Prop :=
| tg_local w : w <> [] -> Forall tag_char w -> tag_text (NTag w) (33 :: w)
| tg_core w : w <> [] -> Forall tag_char w -> tag_text (NTag w) (33 :: 33 :: w)
| tg_named h w : h <> [] -> Forall handle_char h -> w <> [] -> Forall tag_char w -> tag_text (NTag w) (33 :: h ++ 33 :: w).
(** One of them, or both in either order. *)
Inductive props_text : node -> text -> Prop :=
| pr_tag t s : tag_text t s -> props_text (NProperties t NInvalid) s
| pr_anchor a s : anchor_text a s -> props_text (NProperties NInvalid a) s
| pr_tag_anchor t s m a s2 : tag_text t s -> anchor_text a s2 -> props_text (NProperties t a) (s ++ spaces (S m) ++ s2)
| pr_anchor_tag t s m a s2 : anchor_text a s -> tag_text t s2 -> props_text (NProperties t a) (s ++ spaces (S m) ++ s2).
(** A value: an alias, or a tag and an anchor, if any, and what they are for. *)
Inductive leaf_text (n : nat) : node -> text -> Prop :=
| lt_bare t s : bare_text n t s -> leaf_text n t s
| lt_alias w : plain_word w -> leaf_text n (NAlias w) (42 :: w)
| lt_props p s m t s2 : props_text p s -> bare_text n t s2 -> leaf_text n (NContent p t) (s ++ spaces (S m) ++ s2).

(** ** Between the lines: spaces, comments, line breaks *)
Definition comment_char (c : rune) : Prop := ~ In c [10; 13; 65279].
Inductive comment_text : text -> Prop := cm_hash s : Forall comment_char s -> comment_text (35 :: s).
(** The rest of a line after something that counts. *)
Inductive trailing_text : text -> Prop :=
| tr_blank n : trailing_text (spaces n)
| tr_comment n s : comment_text s -> trailing_text (spaces (S n) ++ s).
(** A line without anything that counts, and any number of them. *)
Inductive idle_line_text : text -> Prop :=
| il_blank n : idle_line_text (spaces n)
| il_comment n s : comment_text s -> idle_line_text (spaces n ++ s).
Inductive idle_text : text -> Prop :=
| id_none : idle_text []
| id_more v e s : idle_line_text v -> break_text e -> idle_text s -> idle_text (v ++ e ++ s).
(** From the end of something to the start of the next line that counts. *)
Inductive gap_text : text -> Prop :=
| gp_lines u e s : trailing_text u -> break_text e -> idle_text s -> gap_text (u ++ e ++ s).

(** ** Literal and folded scalars *)
(** The header, and what the end of the text stands for when [k] empty lines follow: one line break; none;
    or all of them. *)
Inductive header_text (c : rune) : (nat -> text) -> text -> Prop :=
| hd_clip : header_text c (fun _ => [10]) [c]
| hd_strip : header_text c (fun _ => []) [c; 45]
| hd_keep : header_text c (fun k => repeat 10 (S k)) [c; 43].
(** [k] empty lines, of at most [v] spaces. *)
Inductive hollow_text (v : nat) : nat -> text -> Prop :=
| hw_none : hollow_text v 0 []
| hw_more k m s : (m <= v)%nat -> hollow_text v k s -> hollow_text v (S k) (spaces m ++ 10 :: s).
(** A line of the text: any characters, but its first word holds no quotes, does not start with a bracket
    and is not a mark. *)
Inductive line_text : text -> Prop :=
| ln_line w s : Forall comment_char (w ++ s) -> w <> [] -> Forall (fun c => ~ In c [9; 32; 34; 39]) w ->
    ~ In (hd 0 w) [91; 123] -> ~ In w [[45; 45; 45]; [46; 46; 46]] -> s = [] \/ blank (hd 0 s) -> line_text (w ++ s).
(** Lines after the first may be indented more. *)
Inductive further_text : text -> Prop :=
| fr_line s : line_text s -> further_text s
| fr_blank c s : blank c -> Forall comment_char s -> further_text (c :: s).
(** The lines after the first, indented by [v]: what they stand for, and their text. *)
Inductive literal_more_text (v : nat) : text -> text -> Prop :=
| lo_none : literal_more_text v [] []
| lo_line k l s w r : hollow_text v k l -> further_text s -> literal_more_text v w r ->
    literal_more_text v (10 :: repeat 10 k ++ s ++ w) (10 :: l ++ spaces v ++ s ++ r).
(** A line of a folded scalar: any characters after an unquoted word. *)
Inductive fold_line_text : text -> Prop :=
| fl_words w s : plain_word w -> Forall comment_char s -> s = [] \/ hd 0 s = 32 -> fold_line_text (w ++ s).
(** What the end of a line stands for when [k] empty lines follow. *)
Definition fold_break (k : nat) : text := match k with O => [32] | _ => repeat 10 k end.
Inductive fold_more_text (v : nat) : text -> text -> Prop :=
| fo_none : fold_more_text v [] []
| fo_line k l s w r : hollow_text v k l -> fold_line_text s -> fold_more_text v w r ->
    fold_more_text v (fold_break k ++ s ++ w) (10 :: l ++ spaces v ++ s ++ r).
(** A folded scalar whose lines are all indented by the same number of spaces, at least [n], up to the start of
    the line after it. *)
Inductive folded_text (n : nat) : node -> text -> Prop :=
| fd_lines v f h u e s w r k l : (n <= v)%nat -> header_text 62 f h -> trailing_text u -> break_text e -> fold_line_text s ->
    fold_more_text v w r -> hollow_text v k l ->
    folded_text n (NText (s ++ w ++ f k) UnknownQuoting) (h ++ u ++ e ++ spaces v ++ s ++ r ++ 10 :: l).
(** A scalar of either style. *)
Inductive literal_text (n : nat) : node -> text -> Prop :=
| li_lines v f h u e s w r k l : (n <= v)%nat -> header_text 124 f h -> trailing_text u -> break_text e -> line_text s ->
    literal_more_text v w r -> hollow_text v k l ->
    literal_text n (NText (s ++ w ++ f k) UnknownQuoting) (h ++ u ++ e ++ spaces v ++ s ++ r ++ 10 :: l)
| li_folded t s : folded_text n t s -> literal_text n t s.

(** From the end of something to the start of the next line that counts, which is indented by [n].  After a
    block scalar ([true]) this is nothing, or starts with a comment. *)
Inductive between_text (n : nat) : bool -> text -> Prop :=
| bt_lines g : gap_text g -> between_text n false g
| bt_none : between_text n true []
| bt_note m s e l : (m <= n)%nat -> comment_text s -> break_text e -> idle_text l -> between_text n true (spaces m ++ s ++ e ++ l).

(** ** Block collections whose entries are indented by [n]; [o]: with a block scalar at the end *)
Inductive entry_text : bool -> bool -> nat -> node -> text -> Prop :=
| et_seq o n t s : after_text o true n t s -> entry_text o true n t (45 :: s)
| et_map o n k ks m t s : scalar_text k ks -> after_text o false n t s -> entry_text o false n (NEntry k t) (ks ++ spaces m ++ 58 :: s)
(** What follows the dash ([true]) or the colon: a value on the line or on the next one; a collection right
    after the dash; a collection on the next line, indented more, or, for a sequence under a key, as much;
    nothing, which stands for null; or a block scalar.  A block scalar and a collection on the next line, indented
    more, may have a tag or an anchor before them. *)
with after_text : bool -> bool -> nat -> node -> text -> Prop :=
| at_leaf kind n m t s : leaf_text (S n) t s -> after_text false kind n t (spaces (S m) ++ s)
| at_below kind n g m t s : gap_text g -> (n < m)%nat -> leaf_text (S n) t s -> after_text false kind n t (g ++ spaces m ++ s)
| at_coll o kind n m es s : entries_text o kind (n + 1 + S m) es s -> after_text o true n (build kind es) (spaces (S m) ++ s)
| at_lines o k2 kind n g m es s : gap_text g -> (n < m)%nat \/ k2 = false /\ kind = true /\ n = m -> entries_text o kind m es s ->
    after_text o k2 n (build kind es) (g ++ spaces m ++ s)
| at_none kind n : after_text false kind n NNull []
| at_literal kind n m t s : literal_text (S n) t s -> after_text true kind n t (spaces (S m) ++ s)
| at_marked_literal kind n m p ps m2 t s : props_text p ps -> literal_text (S n) t s ->
    after_text true kind n (NContent p t) (spaces (S m) ++ ps ++ spaces (S m2) ++ s)
| at_marked_lines o k2 kind n m0 p ps g m es s : props_text p ps -> gap_text g -> (n < m)%nat -> entries_text o kind m es s ->
    after_text o k2 n (NContent p (build kind es)) (spaces (S m0) ++ ps ++ g ++ spaces m ++ s)
with entries_text : bool -> bool -> nat -> list node -> text -> Prop :=
| es_one o kind n e s : entry_text o kind n e s -> entries_text o kind n [e] s
| es_more o o2 kind n e s g es s2 : entry_text o2 kind n e s -> between_text n o2 g -> entries_text o kind n es s2 ->
    entries_text o kind n (e :: es) (s ++ g ++ spaces n ++ s2).

Scheme entry_text_mut := Minimality for entry_text Sort Prop
  with after_text_mut := Minimality for after_text Sort Prop
  with entries_text_mut := Minimality for entries_text Sort Prop.
Combined Scheme text_ind from entry_text_mut, after_text_mut, entries_text_mut.

(** ** Documents and streams *)
(** From the start of a line. *)
Inductive lines_text : bool -> node -> text -> Prop :=
| ls_leaf m t s : leaf_text 0 t s -> lines_text false t (spaces m ++ s)
| ls_entries o kind m es s : entries_text o kind m es s -> lines_text o (build kind es) (spaces m ++ s)
| ls_literal m t s : literal_text 1 t s -> lines_text true t (spaces m ++ s).
(** After the mark of a document. *)
Inductive marked_text : bool -> node -> text -> Prop :=
| mk_leaf m t s : leaf_text 0 t s -> marked_text false t (spaces (S m) ++ s)
| mk_below o g t s : gap_text g -> lines_text o t s -> marked_text o t (g ++ s)
| mk_none : marked_text false NNull []
| mk_literal m t s : literal_text 1 t s -> marked_text true t (spaces (S m) ++ s).
Definition mark_text : text := [45; 45; 45].
Inductive end_text : bool -> text -> Prop :=
| en_line u : trailing_text u -> end_text false u
| en_lines g v : gap_text g -> idle_line_text v -> end_text false (g ++ v)
| en_none : end_text true []
| en_note s : comment_text s -> end_text true s
| en_notes g v : between_text 0 true g -> g <> [] -> idle_line_text v -> end_text true (g ++ v).
(** A dash on its own is an entry only if something follows, be it a line break. *)
Definition dangling (s : text) : Prop := exists u, s = u ++ [45] /\ (u = [] \/ In (last u 0) [32; 10]).
Definition joins (s s2 : text) : Prop := s2 = [] -> ~ dangling s.
(** The documents after the first one. *)
Inductive docs_text : bool -> list node -> text -> Prop :=
| dn_end o s : end_text o s -> docs_text o [] s
| dn_more o o2 g t s ds s2 : between_text 0 o g -> marked_text o2 t s -> docs_text o2 ds s2 -> joins s s2 ->
    docs_text o (t :: ds) (g ++ mark_text ++ s ++ s2).
Inductive stream_text : list node -> text -> Prop :=
| sm_plain o l t s ds s2 : idle_text l -> lines_text o t s -> docs_text o ds s2 -> joins s s2 -> stream_text (t :: ds) (l ++ s ++ s2)
| sm_marked o l t s ds s2 : idle_text l -> marked_text o t s -> docs_text o ds s2 -> joins s s2 ->
    stream_text (t :: ds) (l ++ mark_text ++ s ++ s2).
(** One document. *)
Definition document_text (t : node) (s : text) : Prop := stream_text [t] s.

(** ** JSON texts on any number of lines, with at least [k] spaces between a colon and the value.  There are no line
    breaks and no spaces before colons. *)
Section Json.
  Context (k : nat).
  Inductive json_text : nat -> node -> text -> Prop :=
  | js_string h s : Forall double_char s -> json_text h (NText s DoubleQuoting) (34 :: s ++ [34])
  | js_word h w : plain_word w -> hd 0 w <> 58 -> json_text h (NText w UnknownQuoting) w
  | js_empty kind h w : sep_text 0 w -> json_text (deeper kind h) (build kind []) (opening kind :: w ++ [closing kind])
  | js_items kind h w es s : sep_text 0 w -> json_items kind h es s ->
      json_text (deeper kind h) (build kind es) (opening kind :: w ++ s ++ [closing kind])
  with json_item : bool -> nat -> node -> text -> Prop :=
  | ji_value h t s : json_text h t s -> json_item true h t s
  | ji_member h ks m t s : Forall double_char ks -> (k <= m)%nat -> json_text h t s ->
      json_item false h (NEntry (NText ks DoubleQuoting) t) ((34 :: ks ++ [34]) ++ 58 :: spaces m ++ s)
  with json_items : bool -> nat -> list node -> text -> Prop :=
  | jl_one kind h e s w : json_item kind h e s -> sep_text 0 w -> json_items kind h [e] (s ++ w)
  | jl_more kind h e s w w2 es s2 : json_item kind h e s -> sep_text 0 w -> sep_text 0 w2 -> json_items kind h es s2 ->
      json_items kind h (e :: es) (s ++ w ++ 44 :: w2 ++ s2).
  Scheme json_text_mut := Minimality for json_text Sort Prop
    with json_item_mut := Minimality for json_item Sort Prop
    with json_items_mut := Minimality for json_items Sort Prop.
  Combined Scheme json_ind from json_text_mut, json_item_mut, json_items_mut.
End Json.

