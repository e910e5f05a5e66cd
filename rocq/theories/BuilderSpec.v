(** Specification of the Inserter interface (encode.go 20-68): which call sequences describe which
    values, and which collections are open after a sequence of calls. *)
From Verif Require Import Base Schema Ast Builder.

(** Values a caller can describe. *)
Inductive value :=
| VaNull
| VaScalar (s : scalar)
| VaRawText (t : text)
| VaRaw (n : node)
| VaSeq (vs : list value)
| VaMap (kvs : list (value * value)).

(** The calls describing a value. *)
Fixpoint calls (v : value) : list bop :=
  match v with
  | VaNull => [ONull]
  | VaScalar s => [OScalar s]
  | VaRawText t => [ORawText t None]
  | VaRaw n => [ORaw (RawTree n)]
  | VaSeq vs => OStartSeq :: flat_map calls vs ++ [OEndSeq]
  | VaMap kvs =>
      OStartMap :: flat_map (fun kv => calls (fst kv) ++ calls (snd kv)) kvs ++ [OEndMap]
  end.

(** The tree a value stands for ([q]: one-line strings are left unquoted). *)
Fixpoint tree (q : bool) (v : value) : node :=
  match v with
  | VaNull => NNull
  | VaScalar (SInt z) => NText (sc_from_integer z) AbsentQuoting
  | VaScalar (SUint n) => NText (sc_from_unsigned n) AbsentQuoting
  | VaScalar (SBool b) => NText (sc_from_boolean b) AbsentQuoting
  | VaScalar (SFloat t) => NText t AbsentQuoting
  | VaScalar (STime t) => NText t DoubleQuoting
  | VaScalar (SString t) | VaRawText t =>
      NText t (if q && negb (rune_in 10%N t) then AbsentQuoting else DoubleQuoting)
  | VaRaw n => n
  | VaSeq vs => NSequence (map (tree q) vs)
  | VaMap kvs => NMapping (map (fun kv => NEntry (tree q (fst kv)) (tree q (snd kv))) kvs)
  end.

(** Raw YAML is a single document. *)
Fixpoint single_docs (v : value) : Prop :=
  match v with
  | VaRaw (NStream _) => False
  | VaSeq vs => (fix all l := match l with [] => True | x :: l' => single_docs x /\ all l' end) vs
  | VaMap kvs =>
      (fix all l := match l with
                    | [] => True
                    | kv :: l' => single_docs (fst kv) /\ single_docs (snd kv) /\ all l'
                    end) kvs
  | _ => True
  end.

(** ** open collections *)
Inductive opened := OpSeq | OpMap (key_waits_for_value : bool).

(** a complete value has been inserted below these open collections *)
Definition got_value (st : list opened) : list opened :=
  match st with
  | OpMap k :: st' => OpMap (negb k) :: st'
  | _ => st
  end.

(** [None]: the call does not fit *)
Definition open_step (st : list opened) (o : bop) : option (list opened) :=
  match o with
  | OScalar _ | ONull | ORaw _ | ORawText _ _ => Some (got_value st)
  | OStartSeq => Some (OpSeq :: got_value st)
  | OStartMap => Some (OpMap false :: got_value st)
  | OEndSeq => match st with OpSeq :: st' => Some st' | _ => None end
  | OEndMap => match st with OpMap false :: st' => Some st' | _ => None end
  end.

Fixpoint open_after (st : list opened) (ops : list bop) : option (list opened) :=
  match ops with
  | [] => Some st
  | o :: ops' => match open_step st o with Some st' => open_after st' ops' | None => None end
  end.

(** calls other than raw insertions *)
Definition no_raw (o : bop) : bool := match o with ORaw _ | ORawText _ (Some _) => false | _ => true end.

Section ValueInd.
  Variable P : value -> Prop.
  Hypothesis Hnull : P VaNull.
  Hypothesis Hscalar : forall s, P (VaScalar s).
  Hypothesis Hrawtext : forall t, P (VaRawText t).
  Hypothesis Hraw : forall n, P (VaRaw n).
  Hypothesis Hseq : forall vs, Forall P vs -> P (VaSeq vs).
  Hypothesis Hmap : forall kvs, Forall (fun kv => P (fst kv) /\ P (snd kv)) kvs -> P (VaMap kvs).
  Fixpoint value_ind' (v : value) : P v :=
    match v with
    | VaNull => Hnull
    | VaScalar s => Hscalar s
    | VaRawText t => Hrawtext t
    | VaRaw n => Hraw n
    | VaSeq vs =>
        Hseq vs ((fix go l : Forall P l :=
          match l with
          | [] => Forall_nil P
          | x :: l' => Forall_cons x (value_ind' x) (go l')
          end) vs)
    | VaMap kvs =>
        Hmap kvs ((fix go l : Forall (fun kv => P (fst kv) /\ P (snd kv)) l :=
          match l with
          | [] => Forall_nil _
          | kv :: l' => Forall_cons kv (conj (value_ind' (fst kv)) (value_ind' (snd kv))) (go l')
          end) kvs)
    end.
End ValueInd.

(** raw YAML is only inserted inside a collection (never as the whole document) *)
Fixpoint raw_inside (st : list opened) (ops : list bop) : bool :=
  match ops with
  | [] => true
  | o :: ops' =>
      (match o, st with ORaw _, [] => false | _, _ => true end) &&
      (match open_step st o with Some st' => raw_inside st' ops' | None => true end)
  end.
