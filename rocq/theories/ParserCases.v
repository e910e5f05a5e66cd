(** The test cases of engines/yayamls/parser/parser_test.go (and testdata/learnyaml.yaml), run on the
    model of the parser.  The trees are compared as the tests do, by the kinds and texts of the nodes
    in the order of the repository's comparator.  The texts are the repository's. *)
From Coq Require Import String.
From Verif Require Import Base YamlChar Token Ast CPAccessor Lexer Balance Parser ParserFlow ParserBlock ParserDocs.
Local Open Scope N_scope.
(** the nodes the comparator of the tests sees, in its order, with their texts *)
Fixpoint seen (n : node) : list (option ntype * text) :=
  (match n with
  | NStream l | NSequence l | NMapping l => (node_type n, []) :: flat_map seen l
  | NContent a b | NEntry a b => (node_type n, []) :: seen a ++ seen b
  | NProperties tag anchor => (node_type n, []) :: seen anchor ++ seen tag
  | NTag s | NAnchor s | NAlias s | NText s _ => [(node_type n, s)]
  | NNull => [(node_type n, [])]
  | _ => []
  end)%list.
Definition ntype_eqb (a b : ntype) : bool :=
  match a, b with
  | ContentType, ContentType | MappingType, MappingType | MappingEntryType, MappingEntryType
  | SequenceType, SequenceType | TagType, TagType | AnchorType, AnchorType | AliasType, AliasType
  | StreamType, StreamType | PropertiesType, PropertiesType | TextType, TextType | NullType, NullType => true
  | _, _ => false
  end.
Fixpoint seen_eqb (a b : list (option ntype * text)) : bool :=
  match a, b with
  | [], [] => true
  | (Some x, s) :: a', (Some y, u) :: b' => ntype_eqb x y && text_eqb s u && seen_eqb a' b'
  | _, _ => false
  end.
Definition check_tokens (ts : list token) (n : node) : bool :=
  match parse_tokens is_digit 400 ts with
  | Fin (m, _) _ => seen_eqb (seen m) (seen n) | _ => false end.
Definition check_string (s : text) (n : node) : bool :=
  match parse_string is_digit 400 false s with
  | Fin (inl m) _ => seen_eqb (seen m) (seen n) | _ => false end.

(* empty YAML *)
Definition tk0 : list token := [mkTok TEOF (mkPos 0 0) (mkPos 0 0) [] 0].
Definition te0 : node := (NStream []).
Example tokens_case_0 : check_tokens tk0 te0 = true.
Proof. vm_compute. reflexivity. Qed.

(* simple mapping entry *)
Definition tk1 : list token := [mkTok TString (mkPos 1 1) (mkPos 1 4) (t' "key") 0;
 mkTok TMappingValue (mkPos 1 4) (mkPos 1 5) (t' ":") 0;
 mkTok TSpace (mkPos 1 5) (mkPos 1 6) (t' " ") 0;
 mkTok TString (mkPos 1 6) (mkPos 1 11) (t' "value") 0;
 mkTok TEOF (mkPos 0 0) (mkPos 0 0) [] 0].
Definition te1 : node := (NStream [(NMapping [(NEntry (NText (t' "key") UnknownQuoting) (NText (t' "value") UnknownQuoting))])]).
Example tokens_case_1 : check_tokens tk1 te1 = true.
Proof. vm_compute. reflexivity. Qed.

(* simple sequence *)
Definition tk2 : list token := [mkTok TSequenceEntry (mkPos 0 0) (mkPos 0 0) (t' "-") 0;
 mkTok TSpace (mkPos 0 0) (mkPos 0 0) (t' " ") 0;
 mkTok TString (mkPos 0 0) (mkPos 0 0) (t' "value1") 0;
 mkTok TLineBreak (mkPos 0 0) (mkPos 0 0) ([10%N]) 0;
 mkTok TSequenceEntry (mkPos 0 0) (mkPos 0 0) (t' "-") 0;
 mkTok TSpace (mkPos 0 0) (mkPos 0 0) (t' " ") 0;
 mkTok TString (mkPos 0 0) (mkPos 0 0) (t' "value2") 0;
 mkTok TEOF (mkPos 0 0) (mkPos 0 0) [] 0].
Definition te2 : node := (NStream [(NSequence [(NText (t' "value1") UnknownQuoting); (NText (t' "value2") UnknownQuoting)])]).
Example tokens_case_2 : check_tokens tk2 te2 = true.
Proof. vm_compute. reflexivity. Qed.

(* simple mapping with sequence and simple value *)
Definition tk3 : list token := [mkTok TString (mkPos 0 0) (mkPos 0 0) (t' "sequence") 0;
 mkTok TMappingValue (mkPos 0 0) (mkPos 0 0) (t' ":") 0;
 mkTok TLineBreak (mkPos 0 0) (mkPos 0 0) ([10%N]) 0;
 mkTok TSpace (mkPos 0 0) (mkPos 0 0) (t' " ") 0;
 mkTok TSpace (mkPos 0 0) (mkPos 0 0) (t' " ") 0;
 mkTok TSequenceEntry (mkPos 0 0) (mkPos 0 0) (t' "-") 0;
 mkTok TSpace (mkPos 0 0) (mkPos 0 0) (t' " ") 0;
 mkTok TString (mkPos 0 0) (mkPos 0 0) (t' "sequencevalue1") 0;
 mkTok TLineBreak (mkPos 0 0) (mkPos 0 0) ([10%N]) 0;
 mkTok TSpace (mkPos 0 0) (mkPos 0 0) (t' " ") 0;
 mkTok TSpace (mkPos 0 0) (mkPos 0 0) (t' " ") 0;
 mkTok TSequenceEntry (mkPos 0 0) (mkPos 0 0) (t' "-") 0;
 mkTok TSpace (mkPos 0 0) (mkPos 0 0) (t' " ") 0;
 mkTok TString (mkPos 0 0) (mkPos 0 0) (t' "sequencevalue2") 0;
 mkTok TLineBreak (mkPos 0 0) (mkPos 0 0) ([10%N]) 0;
 mkTok TString (mkPos 0 0) (mkPos 0 0) (t' "simple") 0;
 mkTok TMappingValue (mkPos 0 0) (mkPos 0 0) (t' ":") 0;
 mkTok TSpace (mkPos 0 0) (mkPos 0 0) (t' " ") 0;
 mkTok TString (mkPos 0 0) (mkPos 0 0) (t' "value") 0;
 mkTok TEOF (mkPos 0 0) (mkPos 0 0) [] 0].
Definition te3 : node := (NStream [(NMapping [(NEntry (NText (t' "sequence") UnknownQuoting) (NSequence [(NText (t' "sequencevalue1") UnknownQuoting); (NText (t' "sequencevalue2") UnknownQuoting)])); (NEntry (NText (t' "simple") UnknownQuoting) (NText (t' "value") UnknownQuoting))])]).
Example tokens_case_3 : check_tokens tk3 te3 = true.
Proof. vm_compute. reflexivity. Qed.

(* simple sequence with mapping and simple single quoted value *)
Definition tk4 : list token := [mkTok TSequenceEntry (mkPos 0 0) (mkPos 0 0) (t' "-") 0;
 mkTok TSpace (mkPos 0 0) (mkPos 0 0) (t' " ") 0;
 mkTok TString (mkPos 0 0) (mkPos 0 0) (t' "key1") 0;
 mkTok TMappingValue (mkPos 0 0) (mkPos 0 0) (t' ":") 0;
 mkTok TSpace (mkPos 0 0) (mkPos 0 0) (t' " ") 0;
 mkTok TString (mkPos 0 0) (mkPos 0 0) (t' "value1") 0;
 mkTok TLineBreak (mkPos 0 0) (mkPos 0 0) ([10%N]) 0;
 mkTok TSpace (mkPos 0 0) (mkPos 0 0) (t' " ") 0;
 mkTok TSpace (mkPos 0 0) (mkPos 0 0) (t' " ") 0;
 mkTok TString (mkPos 0 0) (mkPos 0 0) (t' "key2") 0;
 mkTok TMappingValue (mkPos 0 0) (mkPos 0 0) (t' ":") 0;
 mkTok TSpace (mkPos 0 0) (mkPos 0 0) (t' " ") 0;
 mkTok TString (mkPos 0 0) (mkPos 0 0) (t' "value2") 0;
 mkTok TLineBreak (mkPos 0 0) (mkPos 0 0) ([10%N]) 0;
 mkTok TSequenceEntry (mkPos 0 0) (mkPos 0 0) (t' "-") 0;
 mkTok TSpace (mkPos 0 0) (mkPos 0 0) (t' " ") 0;
 mkTok TSingleQuote (mkPos 0 0) (mkPos 0 0) (t' "'") 0;
 mkTok TString (mkPos 0 0) (mkPos 0 0) (t' "quotedvalue") 0;
 mkTok TSingleQuote (mkPos 0 0) (mkPos 0 0) (t' "'") 0;
 mkTok TEOF (mkPos 0 0) (mkPos 0 0) [] 0].
Definition te4 : node := (NStream [(NSequence [(NMapping [(NEntry (NText (t' "key1") UnknownQuoting) (NText (t' "value1") UnknownQuoting));
  (NEntry (NText (t' "key2") UnknownQuoting) (NText (t' "value2") UnknownQuoting))]); (NText (t' "quotedvalue") UnknownQuoting)])]).
Example tokens_case_4 : check_tokens tk4 te4 = true.
Proof. vm_compute. reflexivity. Qed.

(* nested mapping with properties *)
Definition tk5 : list token := [mkTok TString (mkPos 0 0) (mkPos 0 0) (t' "mapping") 0;
 mkTok TMappingValue (mkPos 0 0) (mkPos 0 0) (t' ":") 0;
 mkTok TSpace (mkPos 0 0) (mkPos 0 0) (t' " ") 0;
 mkTok TTag (mkPos 0 0) (mkPos 0 0) (t' "!") 0;
 mkTok TTag (mkPos 0 0) (mkPos 0 0) (t' "!") 0;
 mkTok TString (mkPos 0 0) (mkPos 0 0) (t' "map") 0;
 mkTok TSpace (mkPos 0 0) (mkPos 0 0) (t' " ") 0;
 mkTok TAnchor (mkPos 0 0) (mkPos 0 0) (t' "&") 0;
 mkTok TString (mkPos 0 0) (mkPos 0 0) (t' "ref") 0;
 mkTok TLineBreak (mkPos 0 0) (mkPos 0 0) ([10%N]) 0;
 mkTok TSpace (mkPos 0 0) (mkPos 0 0) (t' " ") 0;
 mkTok TMappingKey (mkPos 0 0) (mkPos 0 0) (t' "?") 0;
 mkTok TSpace (mkPos 0 0) (mkPos 0 0) (t' " ") 0;
 mkTok TString (mkPos 0 0) (mkPos 0 0) (t' "innerkey") 0;
 mkTok TLineBreak (mkPos 0 0) (mkPos 0 0) ([10%N]) 0;
 mkTok TSpace (mkPos 0 0) (mkPos 0 0) (t' " ") 0;
 mkTok TMappingValue (mkPos 0 0) (mkPos 0 0) (t' ":") 0;
 mkTok TSpace (mkPos 0 0) (mkPos 0 0) (t' " ") 0;
 mkTok TString (mkPos 0 0) (mkPos 0 0) (t' "innervalue") 0;
 mkTok TLineBreak (mkPos 0 0) (mkPos 0 0) ([10%N]) 0;
 mkTok TString (mkPos 0 0) (mkPos 0 0) (t' "aliased") 0;
 mkTok TMappingValue (mkPos 0 0) (mkPos 0 0) (t' ":") 0;
 mkTok TSpace (mkPos 0 0) (mkPos 0 0) (t' " ") 0;
 mkTok TAlias (mkPos 0 0) (mkPos 0 0) (t' "*") 0;
 mkTok TString (mkPos 0 0) (mkPos 0 0) (t' "ref") 0;
 mkTok TEOF (mkPos 0 0) (mkPos 0 0) [] 0].
Definition te5 : node := (NStream [(NMapping [(NEntry (NText (t' "mapping") UnknownQuoting) (NContent (NProperties (NTag (t' "map")) (NAnchor (t' "ref"))) (NMapping [(NEntry (NText (t' "innerkey") UnknownQuoting) (NText (t' "innervalue") UnknownQuoting))]))); (NEntry (NText (t' "aliased") UnknownQuoting) (NAlias (t' "ref")))])]).
Example tokens_case_5 : check_tokens tk5 te5 = true.
Proof. vm_compute. reflexivity. Qed.

(* sequence with folded and literal *)
Definition tk6 : list token := [mkTok TSequenceEntry (mkPos 0 0) (mkPos 0 0) (t' "-") 0;
 mkTok TSpace (mkPos 0 0) (mkPos 0 0) (t' " ") 0;
 mkTok TAnchor (mkPos 0 0) (mkPos 0 0) (t' "&") 0;
 mkTok TString (mkPos 0 0) (mkPos 0 0) (t' "lit") 0;
 mkTok TSpace (mkPos 0 0) (mkPos 0 0) (t' " ") 0;
 mkTok TLiteral (mkPos 0 0) (mkPos 0 0) (t' "|") 0;
 mkTok TKeepChomping (mkPos 0 0) (mkPos 0 0) (t' "+") 0;
 mkTok TSpace (mkPos 0 0) (mkPos 0 0) (t' " ") 0;
 mkTok TComment (mkPos 0 0) (mkPos 0 0) (t' "#") 0;
 mkTok TSpace (mkPos 0 0) (mkPos 0 0) (t' " ") 0;
 mkTok TString (mkPos 0 0) (mkPos 0 0) (t' "my_comment") 0;
 mkTok TLineBreak (mkPos 0 0) (mkPos 0 0) ([10%N]) 0;
 mkTok TSpace (mkPos 0 0) (mkPos 0 0) (t' " ") 0;
 mkTok TSpace (mkPos 0 0) (mkPos 0 0) (t' " ") 0;
 mkTok TString (mkPos 0 0) (mkPos 0 0) (t' "firstrow") 0;
 mkTok TLineBreak (mkPos 0 0) (mkPos 0 0) ([10%N]) 0;
 mkTok TSpace (mkPos 0 0) (mkPos 0 0) (t' " ") 0;
 mkTok TSpace (mkPos 0 0) (mkPos 0 0) (t' " ") 0;
 mkTok TString (mkPos 0 0) (mkPos 0 0) (t' "secondrow") 0;
 mkTok TLineBreak (mkPos 0 0) (mkPos 0 0) ([10%N]) 0;
 mkTok TLineBreak (mkPos 0 0) (mkPos 0 0) ([10%N]) 0;
 mkTok TSequenceEntry (mkPos 0 0) (mkPos 0 0) (t' "-") 0;
 mkTok TSpace (mkPos 0 0) (mkPos 0 0) (t' " ") 0;
 mkTok TTag (mkPos 0 0) (mkPos 0 0) (t' "!") 0;
 mkTok TString (mkPos 0 0) (mkPos 0 0) (t' "primary") 0;
 mkTok TSpace (mkPos 0 0) (mkPos 0 0) (t' " ") 0;
 mkTok TFolded (mkPos 0 0) (mkPos 0 0) (t' ">") 0;
 mkTok TString (mkPos 0 0) (mkPos 0 0) (t' "3") 0;
 mkTok TLineBreak (mkPos 0 0) (mkPos 0 0) ([10%N]) 0;
 mkTok TLineBreak (mkPos 0 0) (mkPos 0 0) ([10%N]) 0;
 mkTok TSpace (mkPos 0 0) (mkPos 0 0) (t' " ") 0;
 mkTok TSpace (mkPos 0 0) (mkPos 0 0) (t' " ") 0;
 mkTok TSpace (mkPos 0 0) (mkPos 0 0) (t' " ") 0;
 mkTok TString (mkPos 0 0) (mkPos 0 0) (t' "folded") 0;
 mkTok TEOF (mkPos 0 0) (mkPos 0 0) [] 0].
Definition te6 : node := (NStream [(NSequence [(NContent (NProperties NNil (NAnchor (t' "lit"))) (NText (t' "firstrow" ++ [10%N]
  ++ t' "secondrow" ++ [10%N] ++ [10%N]) UnknownQuoting)); (NContent (NProperties (NTag (t' "primary")) NNil) (NText ([10%N]
  ++ t' "folded") UnknownQuoting))])]).
Example tokens_case_6 : check_tokens tk6 te6 = true.
Proof. vm_compute. reflexivity. Qed.

(* several documents with comments *)
Definition tk7 : list token := [mkTok TComment (mkPos 0 0) (mkPos 0 0) (t' "#") 0;
 mkTok TString (mkPos 0 0) (mkPos 0 0) (t' "directives") 0;
 mkTok TSpace (mkPos 0 0) (mkPos 0 0) (t' " ") 0;
 mkTok TString (mkPos 0 0) (mkPos 0 0) (t' "comment") 0;
 mkTok TLineBreak (mkPos 0 0) (mkPos 0 0) ([10%N]) 0;
 mkTok TDirective (mkPos 0 0) (mkPos 0 0) (t' "%") 0;
 mkTok TString (mkPos 0 0) (mkPos 0 0) (t' "YAML") 0;
 mkTok TSpace (mkPos 0 0) (mkPos 0 0) (t' " ") 0;
 mkTok TString (mkPos 0 0) (mkPos 0 0) (t' "2.2") 0;
 mkTok TLineBreak (mkPos 0 0) (mkPos 0 0) ([10%N]) 0;
 mkTok TDirective (mkPos 0 0) (mkPos 0 0) (t' "%") 0;
 mkTok TString (mkPos 0 0) (mkPos 0 0) (t' "TAG") 0;
 mkTok TSpace (mkPos 0 0) (mkPos 0 0) (t' " ") 0;
 mkTok TTag (mkPos 0 0) (mkPos 0 0) (t' "!") 0;
 mkTok TString (mkPos 0 0) (mkPos 0 0) (t' "yaml") 0;
 mkTok TTag (mkPos 0 0) (mkPos 0 0) (t' "!") 0;
 mkTok TSpace (mkPos 0 0) (mkPos 0 0) (t' " ") 0;
 mkTok TString (mkPos 0 0) (mkPos 0 0) (t' "tag:yaml.org,2002:") 0;
 mkTok TLineBreak (mkPos 0 0) (mkPos 0 0) ([10%N]) 0;
 mkTok TDirectiveEnd (mkPos 0 0) (mkPos 0 0) (t' "---") 0;
 mkTok TLineBreak (mkPos 0 0) (mkPos 0 0) ([10%N]) 0;
 mkTok TDocumentEnd (mkPos 0 0) (mkPos 0 0) (t' "...") 0;
 mkTok TLineBreak (mkPos 0 0) (mkPos 0 0) ([10%N]) 0;
 mkTok TDoubleQuote (mkPos 0 0) (mkPos 0 0) (t' """") 0;
 mkTok TString (mkPos 0 0) (mkPos 0 0) (t' "aaaa") 0;
 mkTok TSpace (mkPos 0 0) (mkPos 0 0) (t' " ") 0;
 mkTok TString (mkPos 0 0) (mkPos 0 0) (t' "\") 0;
 mkTok TLineBreak (mkPos 0 0) (mkPos 0 0) ([10%N]) 0;
 mkTok TDoubleQuote (mkPos 0 0) (mkPos 0 0) (t' """") 0;
 mkTok TLineBreak (mkPos 0 0) (mkPos 0 0) ([10%N]) 0;
 mkTok TEOF (mkPos 0 0) (mkPos 0 0) [] 0].
Definition te7 : node := (NStream [NNull; (NText (t' "aaaa ") UnknownQuoting)]).
Example tokens_case_7 : check_tokens tk7 te7 = true.
Proof. vm_compute. reflexivity. Qed.

(* null nodes *)
Definition tk8 : list token := [mkTok TDirectiveEnd (mkPos 0 0) (mkPos 0 0) (t' "---") 0;
 mkTok TLineBreak (mkPos 0 0) (mkPos 0 0) ([10%N]) 0;
 mkTok TString (mkPos 0 0) (mkPos 0 0) (t' "mapping") 0;
 mkTok TMappingValue (mkPos 0 0) (mkPos 0 0) (t' ":") 0;
 mkTok TLineBreak (mkPos 0 0) (mkPos 0 0) ([10%N]) 0;
 mkTok TSpace (mkPos 0 0) (mkPos 0 0) (t' " ") 0;
 mkTok TSpace (mkPos 0 0) (mkPos 0 0) (t' " ") 0;
 mkTok TDoubleQuote (mkPos 0 0) (mkPos 0 0) (t' """") 0;
 mkTok TString (mkPos 0 0) (mkPos 0 0) (t' "quoted") 0;
 mkTok TSpace (mkPos 0 0) (mkPos 0 0) (t' " ") 0;
 mkTok TString (mkPos 0 0) (mkPos 0 0) (t' "key") 0;
 mkTok TDoubleQuote (mkPos 0 0) (mkPos 0 0) (t' """") 0;
 mkTok TMappingValue (mkPos 0 0) (mkPos 0 0) (t' ":") 0;
 mkTok TSpace (mkPos 0 0) (mkPos 0 0) (t' " ") 0;
 mkTok TComment (mkPos 0 0) (mkPos 0 0) (t' "#") 0;
 mkTok TString (mkPos 0 0) (mkPos 0 0) (t' "empty") 0;
 mkTok TSpace (mkPos 0 0) (mkPos 0 0) (t' " ") 0;
 mkTok TString (mkPos 0 0) (mkPos 0 0) (t' "value") 0;
 mkTok TLineBreak (mkPos 0 0) (mkPos 0 0) ([10%N]) 0;
 mkTok TComment (mkPos 0 0) (mkPos 0 0) (t' "#") 0;
 mkTok TString (mkPos 0 0) (mkPos 0 0) (t' "empty") 0;
 mkTok TSpace (mkPos 0 0) (mkPos 0 0) (t' " ") 0;
 mkTok TString (mkPos 0 0) (mkPos 0 0) (t' "key") 0;
 mkTok TLineBreak (mkPos 0 0) (mkPos 0 0) ([10%N]) 0;
 mkTok TSpace (mkPos 0 0) (mkPos 0 0) (t' " ") 0;
 mkTok TSpace (mkPos 0 0) (mkPos 0 0) (t' " ") 0;
 mkTok TMappingKey (mkPos 0 0) (mkPos 0 0) (t' "?") 0;
 mkTok TLineBreak (mkPos 0 0) (mkPos 0 0) ([10%N]) 0;
 mkTok TSpace (mkPos 0 0) (mkPos 0 0) (t' " ") 0;
 mkTok TSpace (mkPos 0 0) (mkPos 0 0) (t' " ") 0;
 mkTok TMappingValue (mkPos 0 0) (mkPos 0 0) (t' ":") 0;
 mkTok TSpace (mkPos 0 0) (mkPos 0 0) (t' " ") 0;
 mkTok TString (mkPos 0 0) (mkPos 0 0) (t' "value") 0;
 mkTok TLineBreak (mkPos 0 0) (mkPos 0 0) ([10%N]) 0;
 mkTok TComment (mkPos 0 0) (mkPos 0 0) (t' "#") 0;
 mkTok TString (mkPos 0 0) (mkPos 0 0) (t' "empty") 0;
 mkTok TSpace (mkPos 0 0) (mkPos 0 0) (t' " ") 0;
 mkTok TString (mkPos 0 0) (mkPos 0 0) (t' "key") 0;
 mkTok TSpace (mkPos 0 0) (mkPos 0 0) (t' " ") 0;
 mkTok TString (mkPos 0 0) (mkPos 0 0) (t' "and") 0;
 mkTok TSpace (mkPos 0 0) (mkPos 0 0) (t' " ") 0;
 mkTok TString (mkPos 0 0) (mkPos 0 0) (t' "value") 0;
 mkTok TLineBreak (mkPos 0 0) (mkPos 0 0) ([10%N]) 0;
 mkTok TSpace (mkPos 0 0) (mkPos 0 0) (t' " ") 0;
 mkTok TSpace (mkPos 0 0) (mkPos 0 0) (t' " ") 0;
 mkTok TMappingKey (mkPos 0 0) (mkPos 0 0) (t' "?") 0;
 mkTok TLineBreak (mkPos 0 0) (mkPos 0 0) ([10%N]) 0;
 mkTok TSpace (mkPos 0 0) (mkPos 0 0) (t' " ") 0;
 mkTok TSpace (mkPos 0 0) (mkPos 0 0) (t' " ") 0;
 mkTok TMappingValue (mkPos 0 0) (mkPos 0 0) (t' ":") 0;
 mkTok TLineBreak (mkPos 0 0) (mkPos 0 0) ([10%N]) 0;
 mkTok TString (mkPos 0 0) (mkPos 0 0) (t' "sequence") 0;
 mkTok TMappingValue (mkPos 0 0) (mkPos 0 0) (t' ":") 0;
 mkTok TLineBreak (mkPos 0 0) (mkPos 0 0) ([10%N]) 0;
 mkTok TSpace (mkPos 0 0) (mkPos 0 0) (t' " ") 0;
 mkTok TSpace (mkPos 0 0) (mkPos 0 0) (t' " ") 0;
 mkTok TSequenceEntry (mkPos 0 0) (mkPos 0 0) (t' "-") 0;
 mkTok TLineBreak (mkPos 0 0) (mkPos 0 0) ([10%N]) 0;
 mkTok TSpace (mkPos 0 0) (mkPos 0 0) (t' " ") 0;
 mkTok TSpace (mkPos 0 0) (mkPos 0 0) (t' " ") 0;
 mkTok TSequenceEntry (mkPos 0 0) (mkPos 0 0) (t' "-") 0;
 mkTok TSpace (mkPos 0 0) (mkPos 0 0) (t' " ") 0;
 mkTok TString (mkPos 0 0) (mkPos 0 0) (t' "seqvalue") 0;
 mkTok TLineBreak (mkPos 0 0) (mkPos 0 0) ([10%N]) 0;
 mkTok TDocumentEnd (mkPos 0 0) (mkPos 0 0) (t' "...") 0;
 mkTok TEOF (mkPos 0 0) (mkPos 0 0) [] 0].
Definition te8 : node := (NStream [(NMapping [(NEntry (NText (t' "mapping") UnknownQuoting) (NMapping [(NEntry (NText (t' "quoted key") UnknownQuoting) NNull); (NEntry NNull (NText (t' "value") UnknownQuoting)); (NEntry NNull NNull)])); (NEntry (NText (t' "sequence") UnknownQuoting) (NSequence [NNull; (NText (t' "seqvalue") UnknownQuoting)]))])]).
Example tokens_case_8 : check_tokens tk8 te8 = true.
Proof. vm_compute. reflexivity. Qed.

(* flow syntax sequence *)
Definition tk9 : list token := [mkTok TSequenceStart (mkPos 0 0) (mkPos 0 0) (t' "[") 0;
 mkTok TTab (mkPos 0 0) (mkPos 0 0) ([9%N]) 0;
 mkTok TString (mkPos 0 0) (mkPos 0 0) (t' "plain") 0;
 mkTok TTab (mkPos 0 0) (mkPos 0 0) ([9%N]) 0;
 mkTok TCollectEntry (mkPos 0 0) (mkPos 0 0) (t' ",") 0;
 mkTok TDoubleQuote (mkPos 0 0) (mkPos 0 0) (t' """") 0;
 mkTok TString (mkPos 0 0) (mkPos 0 0) (t' "\""multi\""") 0;
 mkTok TLineBreak (mkPos 0 0) (mkPos 0 0) ([10%N]) 0;
 mkTok TLineBreak (mkPos 0 0) (mkPos 0 0) ([10%N]) 0;
 mkTok TLineBreak (mkPos 0 0) (mkPos 0 0) ([10%N]) 0;
 mkTok TSpace (mkPos 0 0) (mkPos 0 0) (t' " ") 0;
 mkTok TSpace (mkPos 0 0) (mkPos 0 0) (t' " ") 0;
 mkTok TString (mkPos 0 0) (mkPos 0 0) (t' "line") 0;
 mkTok TDoubleQuote (mkPos 0 0) (mkPos 0 0) (t' """") 0;
 mkTok TCollectEntry (mkPos 0 0) (mkPos 0 0) (t' ",") 0;
 mkTok TString (mkPos 0 0) (mkPos 0 0) (t' "flow") 0;
 mkTok TMappingValue (mkPos 0 0) (mkPos 0 0) (t' ":") 0;
 mkTok TSpace (mkPos 0 0) (mkPos 0 0) (t' " ") 0;
 mkTok TString (mkPos 0 0) (mkPos 0 0) (t' "pair") 0;
 mkTok TCollectEntry (mkPos 0 0) (mkPos 0 0) (t' ",") 0;
 mkTok TTab (mkPos 0 0) (mkPos 0 0) ([9%N]) 0;
 mkTok TMappingKey (mkPos 0 0) (mkPos 0 0) (t' "?") 0;
 mkTok TSpace (mkPos 0 0) (mkPos 0 0) (t' " ") 0;
 mkTok TSequenceEnd (mkPos 0 0) (mkPos 0 0) (t' "]") 0;
 mkTok TEOF (mkPos 0 0) (mkPos 0 0) [] 0].
Definition te9 : node := (NStream [(NSequence [(NText (t' "plain") UnknownQuoting); (NText (t' "\""multi\""" ++ [10%N] ++ [10%N]
  ++ t' "line") UnknownQuoting); (NEntry (NText (t' "flow") UnknownQuoting) (NText (t' "pair") UnknownQuoting)); (NEntry NNull NNull)])]).
Example tokens_case_9 : check_tokens tk9 te9 = true.
Proof. vm_compute. reflexivity. Qed.

(* flow syntax mapping *)
Definition tk10 : list token := [mkTok TMappingStart (mkPos 0 0) (mkPos 0 0) (t' "{") 0;
 mkTok TSpace (mkPos 0 0) (mkPos 0 0) (t' " ") 0;
 mkTok TString (mkPos 0 0) (mkPos 0 0) (t' "unquoted") 0;
 mkTok TMappingValue (mkPos 0 0) (mkPos 0 0) (t' ":") 0;
 mkTok TTab (mkPos 0 0) (mkPos 0 0) ([9%N]) 0;
 mkTok TSingleQuote (mkPos 0 0) (mkPos 0 0) (t' "'") 0;
 mkTok TString (mkPos 0 0) (mkPos 0 0) (t' "''single quoted''") 0;
 mkTok TLineBreak (mkPos 0 0) (mkPos 0 0) ([10%N]) 0;
 mkTok TSpace (mkPos 0 0) (mkPos 0 0) (t' " ") 0;
 mkTok TLineBreak (mkPos 0 0) (mkPos 0 0) ([10%N]) 0;
 mkTok TSpace (mkPos 0 0) (mkPos 0 0) (t' " ") 0;
 mkTok TLineBreak (mkPos 0 0) (mkPos 0 0) ([10%N]) 0;
 mkTok TSpace (mkPos 0 0) (mkPos 0 0) (t' " ") 0;
 mkTok TSpace (mkPos 0 0) (mkPos 0 0) (t' " ") 0;
 mkTok TString (mkPos 0 0) (mkPos 0 0) (t' "multiline") 0;
 mkTok TSpace (mkPos 0 0) (mkPos 0 0) (t' " ") 0;
 mkTok TString (mkPos 0 0) (mkPos 0 0) (t' """" ++ [4304%N] ++ [4311%N] ++ [4335%N] ++ [4308%N] ++ [4320%N]) 0;
 mkTok TSpace (mkPos 0 0) (mkPos 0 0) (t' " ") 0;
 mkTok TString (mkPos 0 0) (mkPos 0 0) ([4306%N] ++ [4304%N] ++ [4310%N] ++ [4317%N] ++ [4315%N] ++ [4308%N]) 0;
 mkTok TSpace (mkPos 0 0) (mkPos 0 0) (t' " ") 0;
 mkTok TString (mkPos 0 0) (mkPos 0 0) ([4307%N] ++ [4304%N]) 0;
 mkTok TSpace (mkPos 0 0) (mkPos 0 0) (t' " ") 0;
 mkTok TString (mkPos 0 0) (mkPos 0 0) ([4308%N] ++ [4320%N] ++ [4311%N] ++ [4334%N] ++ [4308%N] ++ [4314%N]) 0;
 mkTok TSpace (mkPos 0 0) (mkPos 0 0) (t' " ") 0;
 mkTok TString (mkPos 0 0) (mkPos 0 0) ([4306%N] ++ [4304%N] ++ [4333%N] ++ [4308%N] ++ [4320%N] ++ [4312%N] ++ t' """") 0;
 mkTok TSingleQuote (mkPos 0 0) (mkPos 0 0) (t' "'") 0;
 mkTok TCollectEntry (mkPos 0 0) (mkPos 0 0) (t' ",") 0;
 mkTok TMappingKey (mkPos 0 0) (mkPos 0 0) (t' "?") 0;
 mkTok TSpace (mkPos 0 0) (mkPos 0 0) (t' " ") 0;
 mkTok TDoubleQuote (mkPos 0 0) (mkPos 0 0) (t' """") 0;
 mkTok TString (mkPos 0 0) (mkPos 0 0) (t' "explicit key") 0;
 mkTok TDoubleQuote (mkPos 0 0) (mkPos 0 0) (t' """") 0;
 mkTok TMappingValue (mkPos 0 0) (mkPos 0 0) (t' ":") 0;
 mkTok TString (mkPos 0 0) (mkPos 0 0) (t' "adjacent") 0;
 mkTok TCollectEntry (mkPos 0 0) (mkPos 0 0) (t' ",") 0;
 mkTok TString (mkPos 0 0) (mkPos 0 0) (t' "novalue") 0;
 mkTok TCollectEntry (mkPos 0 0) (mkPos 0 0) (t' ",") 0;
 mkTok TMappingValue (mkPos 0 0) (mkPos 0 0) (t' ":") 0;
 mkTok TCollectEntry (mkPos 0 0) (mkPos 0 0) (t' ",") 0;
 mkTok TMappingKey (mkPos 0 0) (mkPos 0 0) (t' "?") 0;
 mkTok TTab (mkPos 0 0) (mkPos 0 0) ([9%N]) 0;
 mkTok TMappingEnd (mkPos 0 0) (mkPos 0 0) (t' "}") 0].
Definition te10 : node := (NStream [(NMapping [(NEntry (NText (t' "unquoted") UnknownQuoting) (NText (t' "''single quoted''" ++ [10%N]
  ++ [10%N] ++ t' "multiline """ ++ [4304%N] ++ [4311%N] ++ [4335%N] ++ [4308%N] ++ [4320%N] ++ t' " " ++ [4306%N] ++ [4304%N] ++ [4310%N]
  ++ [4317%N] ++ [4315%N] ++ [4308%N] ++ t' " " ++ [4307%N] ++ [4304%N] ++ t' " " ++ [4308%N] ++ [4320%N] ++ [4311%N] ++ [4334%N]
  ++ [4308%N] ++ [4314%N] ++ t' " " ++ [4306%N] ++ [4304%N] ++ [4333%N] ++ [4308%N] ++ [4320%N] ++ [4312%N] ++ t' """") UnknownQuoting));
  (NEntry (NText (t' "explicit key") UnknownQuoting) (NText (t' "adjacent") UnknownQuoting));
  (NEntry (NText (t' "novalue") UnknownQuoting) NNull); (NEntry NNull NNull); (NEntry NNull NNull)])]).
Example tokens_case_10 : check_tokens tk10 te10 = true.
Proof. vm_compute. reflexivity. Qed.

(* mix *)
Definition tk11 : list token := [mkTok TDirective (mkPos 0 0) (mkPos 0 0) (t' "%") 0;
 mkTok TString (mkPos 0 0) (mkPos 0 0) (t' "RESERVED") 0;
 mkTok TSpace (mkPos 0 0) (mkPos 0 0) (t' " ") 0;
 mkTok TString (mkPos 0 0) (mkPos 0 0) (t' "PARAMETER") 0;
 mkTok TLineBreak (mkPos 0 0) (mkPos 0 0) ([10%N]) 0;
 mkTok TComment (mkPos 0 0) (mkPos 0 0) (t' "#") 0;
 mkTok TString (mkPos 0 0) (mkPos 0 0) (t' "directivecomment") 0;
 mkTok TLineBreak (mkPos 0 0) (mkPos 0 0) ([10%N]) 0;
 mkTok TDirective (mkPos 0 0) (mkPos 0 0) (t' "%") 0;
 mkTok TString (mkPos 0 0) (mkPos 0 0) (t' "TAG") 0;
 mkTok TSpace (mkPos 0 0) (mkPos 0 0) (t' " ") 0;
 mkTok TTag (mkPos 0 0) (mkPos 0 0) (t' "!") 0;
 mkTok TSpace (mkPos 0 0) (mkPos 0 0) (t' " ") 0;
 mkTok TTag (mkPos 0 0) (mkPos 0 0) (t' "!") 0;
 mkTok TString (mkPos 0 0) (mkPos 0 0) (t' "local-tag-") 0;
 mkTok TLineBreak (mkPos 0 0) (mkPos 0 0) ([10%N]) 0;
 mkTok TDirectiveEnd (mkPos 0 0) (mkPos 0 0) (t' "---") 0;
 mkTok TLineBreak (mkPos 0 0) (mkPos 0 0) ([10%N]) 0;
 mkTok TSequenceEntry (mkPos 0 0) (mkPos 0 0) (t' "-") 0;
 mkTok TSpace (mkPos 0 0) (mkPos 0 0) (t' " ") 0;
 mkTok TSpace (mkPos 0 0) (mkPos 0 0) (t' " ") 0;
 mkTok TSequenceEntry (mkPos 0 0) (mkPos 0 0) (t' "-") 0;
 mkTok TTab (mkPos 0 0) (mkPos 0 0) ([9%N]) 0;
 mkTok TTag (mkPos 0 0) (mkPos 0 0) (t' "!") 0;
 mkTok TString (mkPos 0 0) (mkPos 0 0) (t' "<!baz>") 0;
 mkTok TSpace (mkPos 0 0) (mkPos 0 0) (t' " ") 0;
 mkTok TString (mkPos 0 0) (mkPos 0 0) (t' "entity") 0;
 mkTok TLineBreak (mkPos 0 0) (mkPos 0 0) ([10%N]) 0;
 mkTok TSpace (mkPos 0 0) (mkPos 0 0) (t' " ") 0;
 mkTok TSpace (mkPos 0 0) (mkPos 0 0) (t' " ") 0;
 mkTok TSpace (mkPos 0 0) (mkPos 0 0) (t' " ") 0;
 mkTok TSequenceEntry (mkPos 0 0) (mkPos 0 0) (t' "-") 0;
 mkTok TSpace (mkPos 0 0) (mkPos 0 0) (t' " ") 0;
 mkTok TString (mkPos 0 0) (mkPos 0 0) (t' "plain") 0;
 mkTok TLineBreak (mkPos 0 0) (mkPos 0 0) ([10%N]) 0;
 mkTok TLineBreak (mkPos 0 0) (mkPos 0 0) ([10%N]) 0;
 mkTok TSpace (mkPos 0 0) (mkPos 0 0) (t' " ") 0;
 mkTok TSpace (mkPos 0 0) (mkPos 0 0) (t' " ") 0;
 mkTok TSpace (mkPos 0 0) (mkPos 0 0) (t' " ") 0;
 mkTok TSpace (mkPos 0 0) (mkPos 0 0) (t' " ") 0;
 mkTok TSpace (mkPos 0 0) (mkPos 0 0) (t' " ") 0;
 mkTok TString (mkPos 0 0) (mkPos 0 0) (t' "multi") 0;
 mkTok TLineBreak (mkPos 0 0) (mkPos 0 0) ([10%N]) 0;
 mkTok TSpace (mkPos 0 0) (mkPos 0 0) (t' " ") 0;
 mkTok TSpace (mkPos 0 0) (mkPos 0 0) (t' " ") 0;
 mkTok TSpace (mkPos 0 0) (mkPos 0 0) (t' " ") 0;
 mkTok TSpace (mkPos 0 0) (mkPos 0 0) (t' " ") 0;
 mkTok TSpace (mkPos 0 0) (mkPos 0 0) (t' " ") 0;
 mkTok TString (mkPos 0 0) (mkPos 0 0) (t' "line") 0;
 mkTok TLineBreak (mkPos 0 0) (mkPos 0 0) ([10%N]) 0;
 mkTok TSequenceEntry (mkPos 0 0) (mkPos 0 0) (t' "-") 0;
 mkTok TSpace (mkPos 0 0) (mkPos 0 0) (t' " ") 0;
 mkTok TFolded (mkPos 0 0) (mkPos 0 0) (t' ">") 0;
 mkTok TStripChomping (mkPos 0 0) (mkPos 0 0) (t' "-") 0;
 mkTok TLineBreak (mkPos 0 0) (mkPos 0 0) ([10%N]) 0;
 mkTok TSpace (mkPos 0 0) (mkPos 0 0) (t' " ") 0;
 mkTok TSpace (mkPos 0 0) (mkPos 0 0) (t' " ") 0;
 mkTok TLineBreak (mkPos 0 0) (mkPos 0 0) ([10%N]) 0;
 mkTok TSpace (mkPos 0 0) (mkPos 0 0) (t' " ") 0;
 mkTok TSpace (mkPos 0 0) (mkPos 0 0) (t' " ") 0;
 mkTok TTab (mkPos 0 0) (mkPos 0 0) ([9%N]) 0;
 mkTok TString (mkPos 0 0) (mkPos 0 0) (t' "spaced") 0;
 mkTok TLineBreak (mkPos 0 0) (mkPos 0 0) ([10%N]) 0;
 mkTok TSpace (mkPos 0 0) (mkPos 0 0) (t' " ") 0;
 mkTok TSpace (mkPos 0 0) (mkPos 0 0) (t' " ") 0;
 mkTok TSpace (mkPos 0 0) (mkPos 0 0) (t' " ") 0;
 mkTok TString (mkPos 0 0) (mkPos 0 0) (t' "text") 0;
 mkTok TLineBreak (mkPos 0 0) (mkPos 0 0) ([10%N]) 0;
 mkTok TLineBreak (mkPos 0 0) (mkPos 0 0) ([10%N]) 0;
 mkTok TComment (mkPos 0 0) (mkPos 0 0) (t' "#") 0;
 mkTok TString (mkPos 0 0) (mkPos 0 0) (t' "trail") 0;
 mkTok TLineBreak (mkPos 0 0) (mkPos 0 0) ([10%N]) 0;
 mkTok TComment (mkPos 0 0) (mkPos 0 0) (t' "#") 0;
 mkTok TString (mkPos 0 0) (mkPos 0 0) (t' "comments") 0;
 mkTok TEOF (mkPos 0 0) (mkPos 0 0) [] 0].
Definition te11 : node := (NStream [(NSequence [(NSequence [(NContent (NProperties (NTag (t' "!baz")) NInvalid) (NText (t' "entity") UnknownQuoting)); (NText (t' "plain" ++ [10%N] ++ t' "multi line") UnknownQuoting)]); (NText ([10%N] ++ [9%N] ++ t' "spaced" ++ [10%N] ++ [10%N] ++ t' " text") UnknownQuoting)])]).
Example tokens_case_11 : check_tokens tk11 te11 = true.
Proof. vm_compute. reflexivity. Qed.

(* mix2 *)
Definition tk12 : list token := [mkTok TDocumentEnd (mkPos 0 0) (mkPos 0 0) (t' "...") 0;
 mkTok TLineBreak (mkPos 0 0) (mkPos 0 0) ([10%N]) 0;
 mkTok TBOM (mkPos 0 0) (mkPos 0 0) ([65279%N]) 0;
 mkTok TSpace (mkPos 0 0) (mkPos 0 0) (t' " ") 0;
 mkTok TComment (mkPos 0 0) (mkPos 0 0) (t' "#") 0;
 mkTok TSpace (mkPos 0 0) (mkPos 0 0) (t' " ") 0;
 mkTok TString (mkPos 0 0) (mkPos 0 0) (t' "stream") 0;
 mkTok TSpace (mkPos 0 0) (mkPos 0 0) (t' " ") 0;
 mkTok TString (mkPos 0 0) (mkPos 0 0) (t' "comment") 0;
 mkTok TLineBreak (mkPos 0 0) (mkPos 0 0) ([10%N]) 0;
 mkTok TDirectiveEnd (mkPos 0 0) (mkPos 0 0) (t' "---") 0;
 mkTok TLineBreak (mkPos 0 0) (mkPos 0 0) ([10%N]) 0;
 mkTok TComment (mkPos 0 0) (mkPos 0 0) (t' "#") 0;
 mkTok TSpace (mkPos 0 0) (mkPos 0 0) (t' " ") 0;
 mkTok TString (mkPos 0 0) (mkPos 0 0) (t' "document") 0;
 mkTok TLineBreak (mkPos 0 0) (mkPos 0 0) ([10%N]) 0;
 mkTok TDocumentEnd (mkPos 0 0) (mkPos 0 0) (t' "...") 0;
 mkTok TLineBreak (mkPos 0 0) (mkPos 0 0) ([10%N]) 0;
 mkTok TAnchor (mkPos 0 0) (mkPos 0 0) (t' "&") 0;
 mkTok TString (mkPos 0 0) (mkPos 0 0) (t' "anchor") 0;
 mkTok TLineBreak (mkPos 0 0) (mkPos 0 0) ([10%N]) 0;
 mkTok TDocumentEnd (mkPos 0 0) (mkPos 0 0) (t' "...") 0;
 mkTok TLineBreak (mkPos 0 0) (mkPos 0 0) ([10%N]) 0;
 mkTok TDocumentEnd (mkPos 0 0) (mkPos 0 0) (t' "...") 0;
 mkTok TLineBreak (mkPos 0 0) (mkPos 0 0) ([10%N]) 0;
 mkTok TSequenceStart (mkPos 0 0) (mkPos 0 0) (t' "[") 0;
 mkTok TAlias (mkPos 0 0) (mkPos 0 0) (t' "*") 0;
 mkTok TString (mkPos 0 0) (mkPos 0 0) (t' "anchor") 0;
 mkTok TSpace (mkPos 0 0) (mkPos 0 0) (t' " ") 0;
 mkTok TMappingValue (mkPos 0 0) (mkPos 0 0) (t' ":") 0;
 mkTok TSpace (mkPos 0 0) (mkPos 0 0) (t' " ") 0;
 mkTok TCollectEntry (mkPos 0 0) (mkPos 0 0) (t' ",") 0;
 mkTok TSpace (mkPos 0 0) (mkPos 0 0) (t' " ") 0;
 mkTok TString (mkPos 0 0) (mkPos 0 0) (t' "plain") 0;
 mkTok TMappingValue (mkPos 0 0) (mkPos 0 0) (t' ":") 0;
 mkTok TSpace (mkPos 0 0) (mkPos 0 0) (t' " ") 0;
 mkTok TSequenceStart (mkPos 0 0) (mkPos 0 0) (t' "[") 0;
 mkTok TSequenceEnd (mkPos 0 0) (mkPos 0 0) (t' "]") 0;
 mkTok TCollectEntry (mkPos 0 0) (mkPos 0 0) (t' ",") 0;
 mkTok TMappingValue (mkPos 0 0) (mkPos 0 0) (t' ":") 0;
 mkTok TSpace (mkPos 0 0) (mkPos 0 0) (t' " ") 0;
 mkTok TString (mkPos 0 0) (mkPos 0 0) (t' "emptyk") 0;
 mkTok TCollectEntry (mkPos 0 0) (mkPos 0 0) (t' ",") 0;
 mkTok TDoubleQuote (mkPos 0 0) (mkPos 0 0) (t' """") 0;
 mkTok TString (mkPos 0 0) (mkPos 0 0) (t' "adjacent") 0;
 mkTok TDoubleQuote (mkPos 0 0) (mkPos 0 0) (t' """") 0;
 mkTok TMappingValue (mkPos 0 0) (mkPos 0 0) (t' ":") 0;
 mkTok TString (mkPos 0 0) (mkPos 0 0) (t' "value") 0;
 mkTok TSequenceEnd (mkPos 0 0) (mkPos 0 0) (t' "]") 0].
Definition te12 : node := (NStream [NNull; (NContent (NProperties NInvalid (NAnchor (t' "anchor"))) NNull);
  (NSequence [(NEntry (NAlias (t' "anchor")) NNull); (NEntry (NText (t' "plain") UnknownQuoting) (NSequence []));
  (NEntry NNull (NText (t' "emptyk") UnknownQuoting)); (NEntry (NText (t' "adjacent") UnknownQuoting) (NText (t' "value") UnknownQuoting))])]).
Example tokens_case_12 : check_tokens tk12 te12 = true.
Proof. vm_compute. reflexivity. Qed.

(* document with BOMs *)
Definition tk13 : list token := [mkTok TString (mkPos 0 0) (mkPos 0 0) (t' "a") 0;
 mkTok TLineBreak (mkPos 0 0) (mkPos 0 0) ([10%N]) 0;
 mkTok TDirectiveEnd (mkPos 0 0) (mkPos 0 0) (t' "---") 0;
 mkTok TLineBreak (mkPos 0 0) (mkPos 0 0) ([10%N]) 0;
 mkTok TBOM (mkPos 0 0) (mkPos 0 0) ([65279%N]) 0;
 mkTok TComment (mkPos 0 0) (mkPos 0 0) (t' "#") 0;
 mkTok TString (mkPos 0 0) (mkPos 0 0) (t' "comment") 0;
 mkTok TEOF (mkPos 0 0) (mkPos 0 0) [] 0].
Definition te13 : node := (NStream [(NText (t' "a") UnknownQuoting); NNull]).
Example tokens_case_13 : check_tokens tk13 te13 = true.
Proof. vm_compute. reflexivity. Qed.

(* netplan example *)
Definition ss0 : text := ([10%N] ++ t' "                network:" ++ [10%N] ++ t' "                  version: 2" ++ [10%N]
  ++ t' "                  renderer: networkd" ++ [10%N] ++ t' "                  ethernets:" ++ [10%N] ++ t' "                    enp3s0:"
  ++ [10%N] ++ t' "                      addresses:" ++ [10%N] ++ t' "                        - 10.10.10.2/24" ++ [10%N] ++ [9%N] ++ [9%N]
  ++ [9%N] ++ [9%N]).
Definition se0 : node := (NStream [(NMapping [(NEntry (NText (t' "network") UnknownQuoting) (NMapping [(NEntry (NText (t' "version") UnknownQuoting) (NText (t' "2") UnknownQuoting)); (NEntry (NText (t' "renderer") UnknownQuoting) (NText (t' "networkd") UnknownQuoting)); (NEntry (NText (t' "ethernets") UnknownQuoting) (NMapping [(NEntry (NText (t' "enp3s0") UnknownQuoting) (NMapping [(NEntry (NText (t' "addresses") UnknownQuoting) (NSequence [(NText (t' "10.10.10.2/24") UnknownQuoting)]))]))]))]))])]).
Example string_case_0 : check_string ss0 se0 = true.
Proof. vm_compute. reflexivity. Qed.

(* k8s configmap *)
Definition ss1 : text := ([10%N] ++ t' "              apiVersion: v1" ++ [10%N] ++ t' "              kind: ConfigMap" ++ [10%N]
  ++ t' "              metadata: " ++ [10%N] ++ t' "                name: game-demo" ++ [10%N] ++ t' "              data:" ++ [10%N]
  ++ t' "                # property-like keys; each key maps to a single value" ++ [10%N]
  ++ t' "                player_initial_lives: ""3""" ++ [10%N]
  ++ t' "                ui_properties_file_name: ""user-interface.properties""" ++ [10%N] ++ [10%N]
  ++ t' "                # file-like keys" ++ [10%N] ++ t' "                game.properties: |" ++ [10%N]
  ++ t' "                  enemy.types=aliens,monsters" ++ [10%N] ++ t' "                  player.maximum-lives=5" ++ [10%N]
  ++ t' "                user-interface.properties: |" ++ [10%N] ++ t' "                  color.good=purple" ++ [10%N]
  ++ t' "                  color.bad=yellow" ++ [10%N] ++ t' "                  allow.textmode=true" ++ [10%N] ++ t' "            ").
Definition se1 : node := (NStream [(NMapping [(NEntry (NText (t' "apiVersion") UnknownQuoting) (NText (t' "v1") UnknownQuoting));
  (NEntry (NText (t' "kind") UnknownQuoting) (NText (t' "ConfigMap") UnknownQuoting));
  (NEntry (NText (t' "metadata") UnknownQuoting) (NMapping [(NEntry (NText (t' "name") UnknownQuoting) (NText (t' "game-demo") UnknownQuoting))])); (NEntry (NText (t' "data") UnknownQuoting) (NMapping [(NEntry (NText (t' "player_initial_lives") UnknownQuoting) (NText (t' "3") UnknownQuoting)); (NEntry (NText (t' "ui_properties_file_name") UnknownQuoting) (NText (t' "user-interface.properties") UnknownQuoting)); (NEntry (NText (t' "game.properties") UnknownQuoting) (NText (t' "enemy.types=aliens,monsters" ++ [10%N] ++ t' "player.maximum-lives=5" ++ [10%N]) UnknownQuoting)); (NEntry (NText (t' "user-interface.properties") UnknownQuoting) (NText (t' "color.good=purple" ++ [10%N] ++ t' "color.bad=yellow" ++ [10%N] ++ t' "allow.textmode=true" ++ [10%N]) UnknownQuoting))]))])]).
Example string_case_1 : check_string ss1 se1 = true.
Proof. vm_compute. reflexivity. Qed.

(* tag and anchor in flow *)
Definition ss2 : text := (t' "{key: !!str &ref value, *ref: *ref}").
Definition se2 : node := (NStream [(NMapping [(NEntry (NText (t' "key") UnknownQuoting) (NContent (NProperties (NTag (t' "str")) (NAnchor (t' "ref"))) (NText (t' "value") UnknownQuoting))); (NEntry (NAlias (t' "ref")) (NAlias (t' "ref")))])]).
Example string_case_2 : check_string ss2 se2 = true.
Proof. vm_compute. reflexivity. Qed.

(* large example *)
Definition ss3 : text := ([10%N] ++ t' "---  # document start" ++ [10%N] ++ [10%N] ++ t' "# Comments in YAML look like this." ++ [10%N]
  ++ t' "# YAML supports single-line comments." ++ [10%N] ++ [10%N] ++ t' "################" ++ [10%N] ++ t' "# SCALAR TYPES #" ++ [10%N]
  ++ t' "################" ++ [10%N] ++ [10%N] ++ t' "# Our root object (which continues for the entire document) will be a map," ++ [10%N]
  ++ t' "# which is equivalent to a dictionary, hash or object in other languages." ++ [10%N] ++ t' "key: value" ++ [10%N]
  ++ t' "another_key: Another value goes here." ++ [10%N] ++ t' "a_number_value: 100" ++ [10%N] ++ t' "scientific_notation: 1e+12"
  ++ [10%N] ++ t' "hex_notation: 0x123  # evaluates to 291" ++ [10%N] ++ t' "octal_notation: 0123 # evaluates to 83" ++ [10%N] ++ [10%N]
  ++ t' "# The number 1 will be interpreted as a number, not a boolean. " ++ [10%N]
  ++ t' "# If you want it to be interpreted as a boolean, use true." ++ [10%N] ++ t' "boolean: true" ++ [10%N] ++ t' "null_value: null"
  ++ [10%N] ++ t' "another_null_value: ~" ++ [10%N] ++ t' "key with spaces: value" ++ [10%N] ++ [10%N]
  ++ t' "# Yes and No (doesn't matter the case) will be evaluated to boolean " ++ [10%N] ++ t' "# true and false values respectively."
  ++ [10%N] ++ t' "# To use the actual value use single or double quotes." ++ [10%N]
  ++ t' "no: no            # evaluates to ""false"": false" ++ [10%N] ++ t' "yes: No           # evaluates to ""true"": false" ++ [10%N]
  ++ t' "not_enclosed: yes # evaluates to ""not_enclosed"": true" ++ [10%N] ++ t' "enclosed: ""yes""   # evaluates to ""enclosed"": yes"
  ++ [10%N] ++ [10%N] ++ t' "# Notice that strings don't need to be quoted. However, they can be." ++ [10%N]
  ++ t' "however: 'A string, enclosed in quotes.'" ++ [10%N]
  ++ t' "'Keys can be quoted too.': ""Useful if you want to put a ':' in your key.""" ++ [10%N]
  ++ t' "single quotes: 'have ''one'' escape pattern'" ++ [10%N]
  ++ t' "double quotes: ""have many: \"", \0, \t, \u263A, \x0d\x0a == \r\n, and more.""" ++ [10%N]
  ++ t' "# UTF-8/16/32 characters need to be encoded" ++ [10%N] ++ t' "Superscript two: \u00B2" ++ [10%N] ++ [10%N]
  ++ t' "# Special characters must be enclosed in single or double quotes" ++ [10%N]
  ++ t' "special_characters: ""[ John ] & { Jane } - <Doe>""" ++ [10%N] ++ [10%N]
  ++ t' "# Multiple-line strings can be written either as a 'literal block' (using |), " ++ [10%N]
  ++ t' "# or a 'folded block' (using '>')." ++ [10%N]
  ++ t' "# Literal block turn every newline within the string into a literal newline (\n)." ++ [10%N]
  ++ t' "# Folded block removes newlines within the string." ++ [10%N] ++ t' "literal_block: |" ++ [10%N]
  ++ t' "  This entire block of text will be the value of the 'literal_block' key," ++ [10%N] ++ t' "  with line breaks being preserved."
  ++ [10%N] ++ [10%N] ++ t' "  The literal continues until de-dented, and the leading indentation is" ++ [10%N] ++ t' "  stripped."
  ++ [10%N] ++ [10%N] ++ t' "      Any lines that are 'more-indented' keep the rest of their indentation -" ++ [10%N]
  ++ t' "      these lines will be indented by 4 spaces." ++ [10%N] ++ t' "folded_style: >" ++ [10%N]
  ++ t' "  This entire block of text will be the value of 'folded_style', but this" ++ [10%N]
  ++ t' "  time, all newlines will be replaced with a single space." ++ [10%N] ++ [10%N]
  ++ t' "  Blank lines, like above, are converted to a newline character." ++ [10%N] ++ [10%N]
  ++ t' "      'More-indented' lines keep their newlines, too -" ++ [10%N] ++ t' "      this text will appear over two lines." ++ [10%N]
  ++ [10%N] ++ t' "# |- and >- removes the trailing blank lines (also called literal/block ""strip"")" ++ [10%N] ++ t' "literal_strip: |-"
  ++ [10%N] ++ t' "  This entire block of text will be the value of the 'literal_block' key," ++ [10%N]
  ++ t' "  with trailing blank line being stripped." ++ [10%N] ++ t' "block_strip: >-" ++ [10%N]
  ++ t' "  This entire block of text will be the value of 'folded_style', but this" ++ [10%N]
  ++ t' "  time, all newlines will be replaced with a single space and" ++ [10%N] ++ t' "  trailing blank line being stripped." ++ [10%N]
  ++ [10%N] ++ t' "## |+ and >+ keeps trailing blank lines (also called literal/block ""keep"")" ++ [10%N] ++ t' "literal_keep: |+"
  ++ [10%N] ++ t' "  This entire block of text will be the value of the 'literal_block' key," ++ [10%N]
  ++ t' "  with trailing blank line being kept." ++ [10%N] ++ [10%N] ++ t' "block_keep: >+" ++ [10%N]
  ++ t' "  This entire block of text will be the value of 'folded_style', but this" ++ [10%N]
  ++ t' "  time, all newlines will be replaced with a single space and" ++ [10%N] ++ t' "  trailing blank line being kept." ++ [10%N]
  ++ [10%N] ++ t' "#####################" ++ [10%N] ++ t' "# COLLECTION TYPES #" ++ [10%N] ++ t' "####################" ++ [10%N] ++ [10%N]
  ++ t' "# Nesting uses indentation. 2 space indent is preferred (but not required)." ++ [10%N] ++ t' "a_nested_map:" ++ [10%N]
  ++ t' "  key: value" ++ [10%N] ++ t' "  another_key: Another Value" ++ [10%N] ++ t' "  another_nested_map:" ++ [10%N]
  ++ t' "    hello: hello" ++ [10%N] ++ [10%N] ++ t' "# Maps don't have to have string keys." ++ [10%N] ++ t' "0.25: a float key" ++ [10%N]
  ++ [10%N] ++ t' "# Keys can also be complex, like multi-line objects" ++ [10%N]
  ++ t' "# We use ? followed by a space to indicate the start of a complex key." ++ [10%N] ++ t' "? |" ++ [10%N] ++ t' "  This is a key"
  ++ [10%N] ++ t' "  that has multiple lines" ++ [10%N] ++ t' ": and this is its value" ++ [10%N] ++ [10%N]
  ++ t' "# YAML also allows mapping between sequences with the complex key syntax" ++ [10%N] ++ t' "# Some language parsers might complain"
  ++ [10%N] ++ t' "# An example" ++ [10%N] ++ t' "? - Manchester United" ++ [10%N] ++ t' "  - Real Madrid" ++ [10%N]
  ++ t' ": [ 2001-01-01, 2002-02-02 ]" ++ [10%N] ++ [10%N] ++ t' "# Sequences (equivalent to lists or arrays) look like this" ++ [10%N]
  ++ t' "# (note that the '-' counts as indentation):" ++ [10%N] ++ t' "a_sequence:" ++ [10%N] ++ t' "  - Item 1" ++ [10%N]
  ++ t' "  - Item 2" ++ [10%N] ++ t' "  - 0.5  # sequences can contain disparate types." ++ [10%N] ++ t' "  - Item 4" ++ [10%N]
  ++ t' "  - key: value" ++ [10%N] ++ t' "    another_key: another_value" ++ [10%N] ++ t' "  - - This is a sequence" ++ [10%N]
  ++ t' "    - inside another sequence" ++ [10%N] ++ t' "  - - - Nested sequence indicators" ++ [10%N] ++ t' "      - can be collapsed"
  ++ [10%N] ++ [10%N] ++ t' "# Since YAML is a superset of JSON, you can also write JSON-style maps and" ++ [10%N] ++ t' "# sequences:"
  ++ [10%N] ++ t' "json_map: { ""key"": ""value"" }" ++ [10%N] ++ t' "json_seq: [ 3, 2, 1, ""takeoff"" ]" ++ [10%N]
  ++ t' "and quotes are optional: { key: [ 3, 2, 1, takeoff ] }" ++ [10%N] ++ [10%N] ++ t' "#######################" ++ [10%N]
  ++ t' "# EXTRA YAML FEATURES #" ++ [10%N] ++ t' "#######################" ++ [10%N] ++ [10%N]
  ++ t' "# YAML also has a handy feature called 'anchors', which let you easily duplicate" ++ [10%N]
  ++ t' "# content across your document." ++ [10%N] ++ t' "# Anchors identified by & character which define the value." ++ [10%N]
  ++ t' "# Aliases identified by * character which acts as ""see above"" command." ++ [10%N]
  ++ t' "# Both of these keys will have the same value:" ++ [10%N]
  ++ t' "anchored_content: &anchor_name This string will appear as the value of two keys." ++ [10%N] ++ t' "other_anchor: *anchor_name"
  ++ [10%N] ++ [10%N] ++ t' "# Anchors can be used to duplicate/inherit properties" ++ [10%N] ++ t' "base: &base" ++ [10%N]
  ++ t' "  name: Everyone has same name" ++ [10%N] ++ [10%N]
  ++ t' "# The regexp << is called 'Merge Key Language-Independent Type'. It is used to" ++ [10%N]
  ++ t' "# indicate that all the keys of one or more specified maps should be inserted" ++ [10%N] ++ t' "# into the current map." ++ [10%N]
  ++ t' "# NOTE: If key already exists alias will not be merged" ++ [10%N] ++ t' "foo:" ++ [10%N]
  ++ t' "  <<: *base # doesn't merge the anchor" ++ [10%N] ++ t' "  age: 10" ++ [10%N] ++ t' "  name: John" ++ [10%N] ++ t' "bar:"
  ++ [10%N] ++ t' "  <<: *base # base anchor will be merged" ++ [10%N] ++ t' "  age: 20" ++ [10%N] ++ [10%N]
  ++ t' "# foo and bar would also have name: Everyone has same name" ++ [10%N] ++ [10%N]
  ++ t' "# YAML also has tags, which you can use to explicitly declare types." ++ [10%N] ++ t' "# Syntax: !![typeName] [value]" ++ [10%N]
  ++ t' "explicit_boolean: !!bool true" ++ [10%N] ++ t' "explicit_integer: !!int 42" ++ [10%N] ++ t' "explicit_float: !!float -42.24"
  ++ [10%N] ++ t' "explicit_string: !!str 0.5" ++ [10%N] ++ t' "explicit_datetime: !!timestamp 2022-11-17 12:34:56.78 +9" ++ [10%N]
  ++ t' "explicit_null: !!null null" ++ [10%N] ++ [10%N]
  ++ t' "# Some parsers implement language specific tags, like this one for Python's" ++ [10%N] ++ t' "# complex number type." ++ [10%N]
  ++ t' "python_complex_number: !!python/complex 1+2j" ++ [10%N] ++ [10%N]
  ++ t' "# We can also use yaml complex keys with language specific tags" ++ [10%N] ++ t' "? !!python/tuple [ 5, 7 ]" ++ [10%N]
  ++ t' ": Fifty Seven" ++ [10%N] ++ t' "# Would be {(5, 7): 'Fifty Seven'} in Python" ++ [10%N] ++ [10%N] ++ t' "####################"
  ++ [10%N] ++ t' "# EXTRA YAML TYPES #" ++ [10%N] ++ t' "####################" ++ [10%N] ++ [10%N]
  ++ t' "# Strings and numbers aren't the only scalars that YAML can understand." ++ [10%N]
  ++ t' "# ISO-formatted date and datetime literals are also parsed." ++ [10%N] ++ t' "datetime_canonical: 2001-12-15T02:59:43.1Z"
  ++ [10%N] ++ t' "datetime_space_separated_with_time_zone: 2001-12-14 21:59:43.10 -5" ++ [10%N] ++ t' "date_implicit: 2002-12-14"
  ++ [10%N] ++ t' "date_explicit: !!timestamp 2002-12-14" ++ [10%N] ++ [10%N]
  ++ t' "# The !!binary tag indicates that a string is actually a base64-encoded" ++ [10%N] ++ t' "# representation of a binary blob."
  ++ [10%N] ++ t' "gif_file: !!binary |" ++ [10%N] ++ t' "  R0lGODlhDAAMAIQAAP//9/X17unp5WZmZgAAAOfn515eXvPz7Y6OjuDg4J+fn5" ++ [10%N]
  ++ t' "  OTk6enp56enmlpaWNjY6Ojo4SEhP/++f/++f/++f/++f/++f/++f/++f/++f/+" ++ [10%N]
  ++ t' "  +f/++f/++f/++f/++f/++SH+Dk1hZGUgd2l0aCBHSU1QACwAAAAADAAMAAAFLC" ++ [10%N]
  ++ t' "  AgjoEwnuNAFOhpEMTRiggcz4BNJHrv/zCFcLiwMWYNG84BwwEeECcgggoBADs=" ++ [10%N] ++ [10%N]
  ++ t' "# YAML also has a set type, which looks like this:" ++ [10%N] ++ t' "set:" ++ [10%N] ++ t' "  ? item1" ++ [10%N] ++ t' "  ? item2"
  ++ [10%N] ++ t' "  ? item3" ++ [10%N] ++ t' "or: { item1, item2, item3 }" ++ [10%N] ++ [10%N]
  ++ t' "# Sets are just maps with null values; the above is equivalent to:" ++ [10%N] ++ t' "set2:" ++ [10%N] ++ t' "  item1: null"
  ++ [10%N] ++ t' "  item2: null" ++ [10%N] ++ t' "  item3: null" ++ [10%N] ++ [10%N] ++ t' "...  # document end" ++ [10%N] ++ [10%N]).
Definition se3 : node := (NStream [(NMapping [(NEntry (NText (t' "key") UnknownQuoting) (NText (t' "value") UnknownQuoting));
  (NEntry (NText (t' "another_key") UnknownQuoting) (NText (t' "Another value goes here.") UnknownQuoting));
  (NEntry (NText (t' "a_number_value") UnknownQuoting) (NText (t' "100") UnknownQuoting));
  (NEntry (NText (t' "scientific_notation") UnknownQuoting) (NText (t' "1e+12") UnknownQuoting));
  (NEntry (NText (t' "hex_notation") UnknownQuoting) (NText (t' "0x123") UnknownQuoting));
  (NEntry (NText (t' "octal_notation") UnknownQuoting) (NText (t' "0123") UnknownQuoting));
  (NEntry (NText (t' "boolean") UnknownQuoting) (NText (t' "true") UnknownQuoting));
  (NEntry (NText (t' "null_value") UnknownQuoting) (NText (t' "null") UnknownQuoting));
  (NEntry (NText (t' "another_null_value") UnknownQuoting) (NText (t' "~") UnknownQuoting));
  (NEntry (NText (t' "key with spaces") UnknownQuoting) (NText (t' "value") UnknownQuoting));
  (NEntry (NText (t' "no") UnknownQuoting) (NText (t' "no") UnknownQuoting));
  (NEntry (NText (t' "yes") UnknownQuoting) (NText (t' "No") UnknownQuoting));
  (NEntry (NText (t' "not_enclosed") UnknownQuoting) (NText (t' "yes") UnknownQuoting));
  (NEntry (NText (t' "enclosed") UnknownQuoting) (NText (t' "yes") UnknownQuoting));
  (NEntry (NText (t' "however") UnknownQuoting) (NText (t' "A string, enclosed in quotes.") UnknownQuoting));
  (NEntry (NText (t' "Keys can be quoted too.") UnknownQuoting) (NText (t' "Useful if you want to put a ':' in your key.") UnknownQuoting));
  (NEntry (NText (t' "single quotes") UnknownQuoting) (NText (t' "have ''one'' escape pattern") UnknownQuoting));
  (NEntry (NText (t' "double quotes") UnknownQuoting) (NText (t' "have many: \"", \0, \t, \u263A, \x0d\x0a == \r\n, and more.") UnknownQuoting)); (NEntry (NText (t' "Superscript two") UnknownQuoting) (NText (t' "\u00B2") UnknownQuoting)); (NEntry (NText (t' "special_characters") UnknownQuoting) (NText (t' "[ John ] & { Jane } - <Doe>") UnknownQuoting)); (NEntry (NText (t' "literal_block") UnknownQuoting) (NText (t' "This entire block of text will be the value of the 'literal_block' key," ++ [10%N] ++ t' "with line breaks being preserved." ++ [10%N] ++ [10%N] ++ t' "The literal continues until de-dented, and the leading indentation is" ++ [10%N] ++ t' "stripped." ++ [10%N] ++ [10%N] ++ t' "    Any lines that are 'more-indented' keep the rest of their indentation -" ++ [10%N] ++ t' "    these lines will be indented by 4 spaces." ++ [10%N]) UnknownQuoting)); (NEntry (NText (t' "folded_style") UnknownQuoting) (NText (t' "This entire block of text will be the value of 'folded_style', but this time, all newlines will be replaced with a single space." ++ [10%N] ++ t' "Blank lines, like above, are converted to a newline character." ++ [10%N] ++ [10%N] ++ t' "    'More-indented' lines keep their newlines, too -" ++ [10%N] ++ [10%N] ++ t' "    this text will appear over two lines." ++ [10%N]) UnknownQuoting)); (NEntry (NText (t' "literal_strip") UnknownQuoting) (NText (t' "This entire block of text will be the value of the 'literal_block' key," ++ [10%N] ++ t' "with trailing blank line being stripped.") UnknownQuoting)); (NEntry (NText (t' "block_strip") UnknownQuoting) (NText (t' "This entire block of text will be the value of 'folded_style', but this time, all newlines will be replaced with a single space and trailing blank line being stripped.") UnknownQuoting)); (NEntry (NText (t' "literal_keep") UnknownQuoting) (NText (t' "This entire block of text will be the value of the 'literal_block' key," ++ [10%N] ++ t' "with trailing blank line being kept." ++ [10%N] ++ [10%N]) UnknownQuoting)); (NEntry (NText (t' "block_keep") UnknownQuoting) (NText (t' "This entire block of text will be the value of 'folded_style', but this time, all newlines will be replaced with a single space and trailing blank line being kept." ++ [10%N] ++ [10%N]) UnknownQuoting)); (NEntry (NText (t' "a_nested_map") UnknownQuoting) (NMapping [(NEntry (NText (t' "key") UnknownQuoting) (NText (t' "value") UnknownQuoting)); (NEntry (NText (t' "another_key") UnknownQuoting) (NText (t' "Another Value") UnknownQuoting)); (NEntry (NText (t' "another_nested_map") UnknownQuoting) (NMapping [(NEntry (NText (t' "hello") UnknownQuoting) (NText (t' "hello") UnknownQuoting))]))])); (NEntry (NText (t' "0.25") UnknownQuoting) (NText (t' "a float key") UnknownQuoting)); (NEntry (NText (t' "This is a key" ++ [10%N] ++ t' "that has multiple lines" ++ [10%N]) UnknownQuoting) (NText (t' "and this is its value") UnknownQuoting)); (NEntry (NSequence [(NText (t' "Manchester United") UnknownQuoting); (NText (t' "Real Madrid") UnknownQuoting)]) (NSequence [(NText (t' "2001-01-01") UnknownQuoting); (NText (t' "2002-02-02") UnknownQuoting)])); (NEntry (NText (t' "a_sequence") UnknownQuoting) (NSequence [(NText (t' "Item 1") UnknownQuoting); (NText (t' "Item 2") UnknownQuoting); (NText (t' "0.5") UnknownQuoting); (NText (t' "Item 4") UnknownQuoting); (NMapping [(NEntry (NText (t' "key") UnknownQuoting) (NText (t' "value") UnknownQuoting)); (NEntry (NText (t' "another_key") UnknownQuoting) (NText (t' "another_value") UnknownQuoting))]); (NSequence [(NText (t' "This is a sequence") UnknownQuoting); (NText (t' "inside another sequence") UnknownQuoting)]); (NSequence [(NSequence [(NText (t' "Nested sequence indicators") UnknownQuoting); (NText (t' "can be collapsed") UnknownQuoting)])])])); (NEntry (NText (t' "json_map") UnknownQuoting) (NMapping [(NEntry (NText (t' "key") UnknownQuoting) (NText (t' "value") UnknownQuoting))])); (NEntry (NText (t' "json_seq") UnknownQuoting) (NSequence [(NText (t' "3") UnknownQuoting); (NText (t' "2") UnknownQuoting); (NText (t' "1") UnknownQuoting); (NText (t' "takeoff") UnknownQuoting)])); (NEntry (NText (t' "and quotes are optional") UnknownQuoting) (NMapping [(NEntry (NText (t' "key") UnknownQuoting) (NSequence [(NText (t' "3") UnknownQuoting); (NText (t' "2") UnknownQuoting); (NText (t' "1") UnknownQuoting); (NText (t' "takeoff") UnknownQuoting)]))])); (NEntry (NText (t' "anchored_content") UnknownQuoting) (NContent (NProperties NNil (NAnchor (t' "anchor_name"))) (NText (t' "This string will appear as the value of two keys.") UnknownQuoting))); (NEntry (NText (t' "other_anchor") UnknownQuoting) (NAlias (t' "anchor_name"))); (NEntry (NText (t' "base") UnknownQuoting) (NContent (NProperties NInvalid (NAnchor (t' "base"))) (NMapping [(NEntry (NText (t' "name") UnknownQuoting) (NText (t' "Everyone has same name") UnknownQuoting))]))); (NEntry (NText (t' "foo") UnknownQuoting) (NMapping [(NEntry (NText (t' "<<") UnknownQuoting) (NAlias (t' "base"))); (NEntry (NText (t' "age") UnknownQuoting) (NText (t' "10") UnknownQuoting)); (NEntry (NText (t' "name") UnknownQuoting) (NText (t' "John") UnknownQuoting))])); (NEntry (NText (t' "bar") UnknownQuoting) (NMapping [(NEntry (NText (t' "<<") UnknownQuoting) (NAlias (t' "base"))); (NEntry (NText (t' "age") UnknownQuoting) (NText (t' "20") UnknownQuoting))])); (NEntry (NText (t' "explicit_boolean") UnknownQuoting) (NContent (NProperties (NTag (t' "bool")) NInvalid) (NText (t' "true") UnknownQuoting))); (NEntry (NText (t' "explicit_integer") UnknownQuoting) (NContent (NProperties (NTag (t' "int")) NInvalid) (NText (t' "42") UnknownQuoting))); (NEntry (NText (t' "explicit_float") UnknownQuoting) (NContent (NProperties (NTag (t' "float")) NInvalid) (NText (t' "-42.24") UnknownQuoting))); (NEntry (NText (t' "explicit_string") UnknownQuoting) (NContent (NProperties (NTag (t' "str")) NInvalid) (NText (t' "0.5") UnknownQuoting))); (NEntry (NText (t' "explicit_datetime") UnknownQuoting) (NContent (NProperties (NTag (t' "timestamp")) NInvalid) (NText (t' "2022-11-17 12:34:56.78 +9") UnknownQuoting))); (NEntry (NText (t' "explicit_null") UnknownQuoting) (NContent (NProperties (NTag (t' "null")) NNil) (NText (t' "null") UnknownQuoting))); (NEntry (NText (t' "python_complex_number") UnknownQuoting) (NContent (NProperties (NTag (t' "python/complex")) NInvalid) (NText (t' "1+2j") UnknownQuoting))); (NEntry (NContent (NProperties (NTag (t' "python/tuple")) NInvalid) (NSequence [(NText (t' "5") UnknownQuoting); (NText (t' "7") UnknownQuoting)])) (NText (t' "Fifty Seven") UnknownQuoting)); (NEntry (NText (t' "datetime_canonical") UnknownQuoting) (NText (t' "2001-12-15T02:59:43.1Z") UnknownQuoting)); (NEntry (NText (t' "datetime_space_separated_with_time_zone") UnknownQuoting) (NText (t' "2001-12-14 21:59:43.10 -5") UnknownQuoting)); (NEntry (NText (t' "date_implicit") UnknownQuoting) (NText (t' "2002-12-14") UnknownQuoting)); (NEntry (NText (t' "date_explicit") UnknownQuoting) (NContent (NProperties (NTag (t' "timestamp")) NNil) (NText (t' "2002-12-14") UnknownQuoting))); (NEntry (NText (t' "gif_file") UnknownQuoting) (NContent (NProperties (NTag (t' "binary")) NInvalid) (NText (t' "R0lGODlhDAAMAIQAAP//9/X17unp5WZmZgAAAOfn515eXvPz7Y6OjuDg4J+fn5" ++ [10%N] ++ t' "OTk6enp56enmlpaWNjY6Ojo4SEhP/++f/++f/++f/++f/++f/++f/++f/++f/+" ++ [10%N] ++ t' "+f/++f/++f/++f/++f/++SH+Dk1hZGUgd2l0aCBHSU1QACwAAAAADAAMAAAFLC" ++ [10%N] ++ t' "AgjoEwnuNAFOhpEMTRiggcz4BNJHrv/zCFcLiwMWYNG84BwwEeECcgggoBADs=" ++ [10%N]) UnknownQuoting))); (NEntry (NText (t' "set") UnknownQuoting) (NMapping [(NEntry (NText (t' "item1") UnknownQuoting) NNull); (NEntry (NText (t' "item2") UnknownQuoting) NNull); (NEntry (NText (t' "item3") UnknownQuoting) NNull)])); (NEntry (NText (t' "or") UnknownQuoting) (NMapping [(NEntry (NText (t' "item1") UnknownQuoting) NNull); (NEntry (NText (t' "item2") UnknownQuoting) NNull); (NEntry (NText (t' "item3") UnknownQuoting) NNull)])); (NEntry (NText (t' "set2") UnknownQuoting) (NMapping [(NEntry (NText (t' "item1") UnknownQuoting) (NText (t' "null") UnknownQuoting)); (NEntry (NText (t' "item2") UnknownQuoting) (NText (t' "null") UnknownQuoting)); (NEntry (NText (t' "item3") UnknownQuoting) (NText (t' "null") UnknownQuoting))]))])]).
Example string_case_3 : check_string ss3 se3 = true.
Proof. vm_compute. reflexivity. Qed.

