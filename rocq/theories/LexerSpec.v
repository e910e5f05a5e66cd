(** Specification of tokenization: positions of the characters of a document. *)
From Verif Require Import Base Token.
Local Open Scope N_scope.

(** The character [c], followed by [rest], is the last one of its line: LF, or CR not followed by
    LF. *)
Definition ends_line (c : rune) (rest : text) : bool :=
  (c =? 10) || ((c =? 13) && negb (match rest with x :: _ => x =? 10 | [] => false end)).

(** Row and column of the [n]-th character (counting from 0) of a text whose first character has
    the given row and column. *)
Fixpoint locate (r k : N) (s : text) (n : nat) {struct n} : position :=
  match n, s with
  | O, _ => mkPos r k
  | S n', c :: s' => if ends_line c s' then locate (r + 1) 1 s' n' else locate r (k + 1) s' n'
  | S n', [] => mkPos r k
  end.

(** In a document, rows and columns start from 1. *)
Definition place (doc : text) (n : nat) : position := locate 1 1 doc n.

Definition origins (ts : list token) : text := flat_map tok_origin ts.

Definition is_eof (tk : token) : bool := match tok_type tk with TEOF => true | _ => false end.

(** The text a token of each kind stands for. *)
Definition kind_text (ty : ttype) (o : text) : Prop :=
  match ty with
  | TUnknown => False
  | TSequenceEntry | TStripChomping => o = [45]           (* - *)
  | TKeepChomping => o = [43]                             (* + *)
  | TMappingKey => o = [63]                               (* ? *)
  | TMappingValue => o = [58]                             (* : *)
  | TCollectEntry => o = [44]                             (* , *)
  | TSequenceStart => o = [91]                            (* [ *)
  | TSequenceEnd => o = [93]                              (* ] *)
  | TMappingStart => o = [123]                            (* { *)
  | TMappingEnd => o = [125]                              (* } *)
  | TComment => o = [35]                                  (* # *)
  | TAnchor => o = [38]                                   (* & *)
  | TAlias => o = [42]                                    (* * *)
  | TTag => o = [33]                                      (* ! *)
  | TLiteral => o = [124]                                 (* | *)
  | TFolded => o = [62]                                   (* > *)
  | TSingleQuote => o = [39]
  | TDoubleQuote => o = [34]
  | TDirective => o = [37]                                (* % *)
  | TLineBreak => o = [10] \/ o = [13] \/ o = [13; 10]
  | TSpace => o = [32]
  | TTab => o = [9]
  | TBOM => o = [65279]
  | TEOF => o = []
  | TDocumentEnd => o = [46; 46; 46]                      (* ... *)
  | TDirectiveEnd => o = [45; 45; 45]                     (* --- *)
  | TString => o <> [] /\ forall c, In c o -> c <> 9 /\ c <> 10 /\ c <> 13 /\ c <> 65279
  end.
