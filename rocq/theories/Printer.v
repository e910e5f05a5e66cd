(** Model of engines/yayamls/ast/astprint/printer.go. *)
From Coq Require Import String.
From Verif Require Import Base Ast.
Local Open Scope N_scope.

(* engines/yayamls/ast/node.go 52-94 *)
Definition type_name (t : ntype) : text :=
  match t with
  | InvalidType => t' "invalid" | DocumentType => t' "document" | ContentType => t' "content"
  | MappingType => t' "mapping" | MappingEntryType => t' "mapping_entry" | SequenceType => t' "sequence"
  | CommentType => t' "comment" | DirectiveType => t' "directive" | TagType => t' "tag" | AnchorType => t' "anchor"
  | AliasType => t' "alias" | StreamType => t' "stream" | DocumentPrefixType => t' "document_prefix"
  | DocumentSuffixType => t' "document_suffix" | IndentType => t' "indent" | PropertiesType => t' "properties"
  | BlockHeaderType => t' "block_header" | TextType => t' "text" | NullType => t' "null"
  end.
(** The nodes that are Texters (node.go 142-146). *)
Definition texter (n : node) : option text :=
  match n with NTag s | NAnchor s | NAlias s | NText s _ => Some s | _ => None end.

(* printer.go 12-18 *)
Definition edge_link : text := [9474].
Definition edge_mid : text := [9500; 9472; 9472].
Definition edge_end : text := [9492; 9472; 9472].
Definition indent_size : nat := 3.

(* printer.go 22-28; the writer is what was written to it.  levelsEnded is only appended to and set back, so a list
   with value semantics does. *)
Record printer := mkPrinter { p_edge : text; p_level : nat; p_ended : list nat; p_out : text; p_any : bool }.
(* printer.go 30-47 *)
Definition new_printer : printer := mkPrinter edge_mid 0 [] [] false.
Definition put (s : text) (p : printer) : printer := mkPrinter (p_edge p) (p_level p) (p_ended p) (p_out p ++ s) (p_any p).

(* printer.go 101-108 *)
Definition level_ended (p : printer) (l : nat) : bool := existsb (Nat.eqb l) (p_ended p).
(* strings.ReplaceAll(s, "\n", `\n`) *)
Definition replace_breaks (s : text) : text := flat_map (fun c => if c =? 10 then [92; 110] else [c]) s.

(* printer.go 63-81; None: a nil node has no Type *)
Definition print_with_level (n : node) (p : printer) : option printer :=
  let ind := concat (map (fun i => if level_ended p i then repeat 32 (indent_size + 1) else edge_link ++ repeat 32 indent_size) (seq 0 (p_level p))) in
  match node_type n with
  | None => None
  | Some ty =>
    Some (put (match texter n with
      | Some s => ind ++ p_edge p ++ t' " [" ++ type_name ty ++ t' "] " ++ replace_breaks s ++ [10]
      | None => ind ++ p_edge p ++ t' " [" ++ type_name ty ++ t' "] " ++ [10]
      end) p)
  end.
(* printer.go 83-91 *)
Definition print_root (n : node) (p : printer) : option printer :=
  match node_type n with
  | None => None
  | Some ty =>
    let p := put (match texter n with
      | Some s => t' "[" ++ type_name ty ++ t' "] " ++ s ++ [10]
      | None => t' "[" ++ type_name ty ++ t' "] " ++ [10]
      end) p in
    Some (mkPrinter (p_edge p) (p_level p) (p_ended p) (p_out p) true)
  end.
(* printer.go 93-99 *)
Definition print_value (n : node) (p : printer) : option printer := if p_any p then print_with_level n p else print_root n p.

(** The body of all loops and branches of the visitor: printer.go 118-128 and the like. *)
Definition print_child (accept : printer -> option printer) (n : node) (is_last : bool) (p : printer) : option printer :=
  let p := mkPrinter (if is_last then edge_end else edge_mid) (p_level p) (if is_last then p_ended p ++ [p_level p] else p_ended p) (p_out p) (p_any p) in
  match print_value n p with
  | None => None
  | Some p =>
    match accept (mkPrinter (p_edge p) (S (p_level p)) (p_ended p) (p_out p) (p_any p)) with
    | None => None
    | Some p => Some (mkPrinter (p_edge p) (pred (p_level p)) (p_ended p) (p_out p) (p_any p))
    end
  end.
(** The deferred functions: printer.go 110-113 and the like. *)
Definition set_ended (e : list nat) (p : option printer) : option printer :=
  match p with None => None | Some p => Some (mkPrinter (p_edge p) (p_level p) e (p_out p) (p_any p)) end.
Definition is_nil (n : node) : bool := match n with NNil => true | _ => false end.

(** Accept with the printer as visitor. *)
Fixpoint accept (n : node) (p : printer) {struct n} : option printer :=
  let each := fix each (l : list node) (p : printer) : option printer :=
    match l with
    | [] => Some p
    | x :: r =>
      match print_child (accept x) x (match r with [] => true | _ => false end) p with
      | None => None
      | Some p => each r p
      end
    end in
  (* printer.go 139-178, 220-259, 263-302 *)
  let two := fun (a b : node) (p : printer) =>
    let max_count := ((if is_nil a then 0 else 1) + (if is_nil b then 0 else 1))%nat in
    let first := if is_nil a then Some (p, O) else
      match print_child (accept a) a (Nat.eqb 0 (max_count - 1)) p with None => None | Some p => Some (p, 1%nat) end in
    match first with
    | None => None
    | Some (p, count) => if is_nil b then Some p else print_child (accept b) b (Nat.eqb count (max_count - 1)) p
    end in
  match n with
  | NStream l => set_ended (p_ended p) (each l p)         (* printer.go 110-129 *)
  | NSequence l => set_ended (p_ended p) (each l p)       (* printer.go 180-198 *)
  | NMapping l => set_ended (p_ended p) (each l p)        (* printer.go 200-218 *)
  | NContent a b => set_ended (p_ended p) (two a b p)
  | NEntry a b => set_ended (p_ended p) (two a b p)
  | NProperties a b => set_ended (p_ended p) (two a b p)
  | NNil => None
  | _ => Some p                                           (* printer.go 131-137, 261; node.go 168, 307, 415 *)
  end.

(** What Print gives: an error for a nil root, the text written, or a panic. *)
Inductive printed := PrError | PrPanic | PrText (s : text).
(* printer.go 49-61, for a writer that is not nil *)
Definition print (root : node) : printed :=
  if is_nil root then PrError else
  match print_value root new_printer with
  | None => PrPanic
  | Some p => match accept root p with None => PrPanic | Some p => PrText (p_out p) end
  end.
