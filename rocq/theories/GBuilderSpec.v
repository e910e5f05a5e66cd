(** The Inserter interface for the yaml.v3 engine: calls describing a value and the node they
    stand for (the values are those of BuilderSpec, with yaml.v3 raw nodes). *)
From Coq Require Import String.
From Verif Require Import Base Schema Builder BuilderSpec GBuilder.

Inductive gvalue :=
| GvNull | GvScalar (s : scalar) | GvRawText (t : text) | GvRaw (n : gnode)
| GvSeq (vs : list gvalue) | GvMap (kvs : list (gvalue * gvalue)).

Fixpoint gcalls (v : gvalue) : list gop :=
  match v with
  | GvNull => [GNull]
  | GvScalar s => [GScalar s]
  | GvRawText t => [GRawText t None]
  | GvRaw n => [GRaw (GRawTree n)]
  | GvSeq vs => GStartSeq :: flat_map gcalls vs ++ [GEndSeq]
  | GvMap kvs =>
      GStartMap :: flat_map (fun kv => gcalls (fst kv) ++ gcalls (snd kv)) kvs ++ [GEndMap]
  end.

(** plain scalars have style 0, quoted ones style 2; a mapping's content alternates keys and
    values *)
Fixpoint gtree (q : bool) (v : gvalue) : gnode :=
  match v with
  | GvNull => G KScalar 0 (t' "!!null") (t' "null") [] []
  | GvScalar (SInt z) => G KScalar 0 [] (sc_from_integer z) [] []
  | GvScalar (SUint n) => G KScalar 0 [] (sc_from_unsigned n) [] []
  | GvScalar (SBool b) => G KScalar 0 [] (sc_from_boolean b) [] []
  | GvScalar (SFloat t) => G KScalar 0 [] t [] []
  | GvScalar (STime t) => G KScalar 2 [] t [] []
  | GvScalar (SString t) | GvRawText t =>
      G KScalar (if q && negb (rune_in 10%N t) then 0 else 2) [] t [] []
  | GvRaw n => n
  | GvSeq vs => G KSequence 0 [] [] [] (map (gtree q) vs)
  | GvMap kvs => G KMapping 0 [] [] [] (flat_map (fun kv => [gtree q (fst kv); gtree q (snd kv)]) kvs)
  end.

(** open collections, as in BuilderSpec *)
Definition g_open_step (st : list opened) (o : gop) : option (list opened) :=
  match o with
  | GScalar _ | GNull | GRaw _ | GRawText _ _ => Some (got_value st)
  | GStartSeq => Some (OpSeq :: got_value st)
  | GStartMap => Some (OpMap false :: got_value st)
  | GEndSeq => match st with OpSeq :: st' => Some st' | _ => None end
  | GEndMap => match st with OpMap false :: st' => Some st' | _ => None end
  end.
(** the same, but tolerating a mapping that ends after a key *)
Definition g_open_step_lax (st : list opened) (o : gop) : option (list opened) :=
  match o with
  | GEndMap => match st with OpMap _ :: st' => Some st' | _ => None end
  | _ => g_open_step st o
  end.
Fixpoint g_open_after_lax (st : list opened) (ops : list gop) : option (list opened) :=
  match ops with
  | [] => Some st
  | o :: ops' =>
      match g_open_step_lax st o with Some st' => g_open_after_lax st' ops' | None => None end
  end.
Fixpoint g_raw_inside (st : list opened) (ops : list gop) : bool :=
  match ops with
  | [] => true
  | o :: ops' =>
      (match o, st with GRaw _, [] => false | _, _ => true end) &&
      (match g_open_step_lax st o with Some st' => g_raw_inside st' ops' | None => true end)
  end.

Section GValueInd.
  Variable P : gvalue -> Prop.
  Hypothesis Hnull : P GvNull.
  Hypothesis Hscalar : forall s, P (GvScalar s).
  Hypothesis Hrawtext : forall t, P (GvRawText t).
  Hypothesis Hraw : forall n, P (GvRaw n).
  Hypothesis Hseq : forall vs, Forall P vs -> P (GvSeq vs).
  Hypothesis Hmap : forall kvs, Forall (fun kv => P (fst kv) /\ P (snd kv)) kvs -> P (GvMap kvs).
  Fixpoint gvalue_ind' (v : gvalue) : P v :=
    match v with
    | GvNull => Hnull
    | GvScalar s => Hscalar s
    | GvRawText t => Hrawtext t
    | GvRaw n => Hraw n
    | GvSeq vs =>
        Hseq vs ((fix go l : Forall P l :=
          match l with
          | [] => Forall_nil P
          | x :: l' => Forall_cons x (gvalue_ind' x) (go l')
          end) vs)
    | GvMap kvs =>
        Hmap kvs ((fix go l : Forall (fun kv => P (fst kv) /\ P (snd kv)) l :=
          match l with
          | [] => Forall_nil _
          | kv :: l' => Forall_cons kv (conj (gvalue_ind' (fst kv)) (gvalue_ind' (snd kv))) (go l')
          end) kvs)
    end.
End GValueInd.
