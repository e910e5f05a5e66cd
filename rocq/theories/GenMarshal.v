(** Model of the methods MarshalYAML and UnmarshalYAML that are generated for a type with the yayamls
    engine (engines/yayamls/engine.go 37-58): the whole way from a Go value to a text and back. *)
From Verif Require Import Base Schema Values Ast Writer Builder Encoder Parser ParserDocs Reader YReader GenCode GenSpec.
Local Open Scope nat_scope.

(** engine.go 50-58: a new encoder, the calls of the generated function, EncodeToBytes (modelled in
    Encoder.v; the destination type of EncodeTo plays no role).  Characters stand for their UTF-8 bytes. *)
Definition y_marshal (x : externs) (tb : structs) (omitempty : bool) (t : gotype) (v : goval)
  : list (Encoder.answer berr unit wout wto_out) :=
  yayamls_run (fun d _ => (None, d)) false (map RInsert (encode_top x tb omitempty t v) ++ [RBytes]).

Inductive unmarshal_error := USyntax (l : list perror) | URead (l : list rerr).

(** engine.go 37-48: NewASTReaderFromBytes (decode/reader.go 121-127: ParseBytes with WithOmitStream),
    the generated function, Error.  [z] is what the destination holds before. *)
Definition y_unmarshal (digit : rune -> bool) (x : externs) (tb : structs) (omitempty strict : bool) (o : oracle)
  (fuel : nat) (t : gotype) (z : goval) (doc : text) : outcome (goval * option unmarshal_error) :=
  match parse_string digit fuel true doc with
  | OutOfFuel => NoFuel
  | Panicked => Panics
  | Fin (inr es) _ => Done (z, Some (USyntax es))
  | Fin (inl n) _ =>
      obind (y_decode x tb omitempty strict o false fuel t z n) (fun s =>
      obind (do_call (y_engine o) o fuel DError (fst (snd s))) (fun e =>
      Done (fst s, match fst e with AErrors [] => None | AErrors es => Some (URead es) | _ => None end)))
  end.
